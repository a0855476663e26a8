(** * Properties C01 - C12: the IRI library (amara.lib.iri)

    Statements only; proofs are in IriSplit, IriDots, IriPct, IriAbs, IriRel,
    IriMisc, IriNorm.  The specification vocabulary is in IriSpec. *)
From Coq Require Import NArith ZArith String List Bool Lia Arith.
From Verif Require Import PyStr PyErr Regex Utf8 IriModel IriSpec IriSplit IriDots IriPct IriAbs IriRel IriMisc IriNorm.
Import ListNotations.
Open Scope N_scope.

(** Python 2 equality of str and unicode objects: same text, and between the
    two types only if the byte string is ASCII. *)
Definition py_eq (a b : pystr) : Prop :=
  match a, b with
  | PyB x, PyB y => x = y
  | PyU x, PyU y => x = y
  | PyB x, PyU y | PyU y, PyB x => x = y /\ Forall (fun c => c < 128) x
  end.

(** ** C01 *)
Theorem C01_split_unsplit_lossless : forall u, ~ In 10 u ->
  exists p, split_uri_ref u = Ok p /\ unsplit_uri_ref p = u.
Proof. exact split_unsplit. Qed.
Print Assumptions C01_split_unsplit_lossless.

(** The line-feed exclusion is needed: '.' and '$' in the regular expression
    stop at line feeds. *)
Theorem C01_line_feed_lost : exists u p, split_uri_ref u = Ok p /\ unsplit_uri_ref p <> u.
Proof. exists (lit "a#b" ++ [10]). eexists. split; [vm_compute; reflexivity|vm_compute; discriminate]. Qed.

Example C01_case : exists p, split_uri_ref (lit "s://u@h:1/a;b?c?d#e#f") = Ok p /\
  p = mkparts (Some (lit "s")) (Some (lit "u@h:1")) (lit "/a;b") (Some (lit "c?d")) (Some (lit "e#f")).
Proof. eexists; split; vm_compute; reflexivity. Qed.

(** ** C02 *)
Theorem C02_split_recovers_components : forall s a p q f,
  legal (Comp s a p q f) -> (forall t, f = Some t -> ~ In 10 t) ->
  split_uri_ref (unsplit_uri_ref (mkparts s a p q f)) = Ok (mkparts s a p q f).
Proof.
  intros s a p q f L F. rewrite unsplit_recompose. cbn [of_parts u_scheme u_auth u_path u_query u_frag].
  now rewrite split_legal.
Qed.
Print Assumptions C02_split_recovers_components.

(** The text written is the one RFC 3986 section 5.3 prescribes, and every
    string is the text of some legal components. *)
Theorem C02_unsplit_is_rfc_recomposition : forall s a p q f,
  unsplit_uri_ref (mkparts s a p q f) = recompose (Comp s a p q f).
Proof. intros. apply unsplit_recompose. Qed.
Print Assumptions C02_unsplit_is_rfc_recomposition.

(** Components read off a concrete string are legal. *)
Lemma legal_of_split : forall u p, ~ In 10 u -> split_uri_ref u = Ok p -> legal (of_parts p).
Proof.
  intros u p H E. destruct (split_total u H) as (c & L & _ & E'). rewrite E in E'. injection E' as ->.
  destruct c; exact L.
Qed.
Ltac concrete u := match goal with |- legal ?c => change (legal (of_parts (to_parts c))) end; apply (legal_of_split (lit u)); [cbn; intuition discriminate|vm_compute; reflexivity].

Example C02_case : legal (Comp (Some (lit "http")) (Some (lit "h")) (lit "/a/b") (Some []) (Some (lit "x"))).
Proof. concrete "http://h/a/b?#x"%string. Qed.

(** split_authority is lossless as well. *)
Theorem C02_split_authority_lossless : forall a, ~ In 10 a -> exists ui h p, split_authority a = (ui, h, p) /\
  a = (match ui with Some u => u ++ lit "@" | None => [] end) ++ h ++ (match p with Some q => lit ":" ++ q | None => [] end) /\
  (forall u, ui = Some u -> ~ In 64 u) /\ (ui = None -> ~ In 64 a) /\ ~ In 58 h.
Proof. exact split_authority_spec. Qed.
Print Assumptions C02_split_authority_lossless.

(** ** C03 *)

(** Byte strings: the full round trip. *)
Theorem C03_percent_roundtrip_bytes : forall b, Forall (fun c => c < 256) b ->
  bind (percent_encode (PyB b)) percent_decode = Ok (PyB b).
Proof. intros b H. cbn [percent_encode percent_encode_ bind percent_decode percent_decode_]. now rewrite pct_bytes. Qed.
Print Assumptions C03_percent_roundtrip_bytes.

(** Unicode strings: the round trip holds, up to Python's equality, exactly
    when the string has an unreserved character or is all ASCII; otherwise the
    UTF-8 bytes come back. *)
Theorem C03_percent_roundtrip_partial : forall u, Forall scalar u ->
  exists r, bind (percent_encode (PyU u)) percent_decode = Ok r /\
    ((exists c, In c u /\ rfc_unreserved c) -> r = PyU u) /\
    (Forall (fun c => c < 128) u -> py_eq r (PyU u)) /\
    (r = PyU u \/ r = PyB (utf8_encode u)).
Proof.
  intros u H. eexists. split; [now apply pct_roundtrip_unicode|]. repeat split.
  - intros (c & Hc & Hu). replace (existsb unreserved u) with true; auto. symmetry. apply existsb_exists.
    exists c. split; auto. now apply unreserved_rfc.
  - intro Ha. destruct (existsb unreserved u); [reflexivity|].
    assert (E : utf8_encode u = u).
    { clear H. induction u as [|c u IH]; [reflexivity|]. inversion Ha; subst.
      change (utf8_encode (c :: u)) with (utf8_1 c ++ utf8_encode u). rewrite IH by assumption.
      unfold utf8_1. destruct (N.ltb_spec c 128); [reflexivity|lia]. }
    rewrite E. simpl. auto.
  - destruct (existsb unreserved u); auto.
Qed.
Print Assumptions C03_percent_roundtrip_partial.

Theorem C03_percent_roundtrip_refuted : exists u r, Forall scalar u /\
  bind (percent_encode (PyU u)) percent_decode = Ok r /\ ~ py_eq r (PyU u).
Proof.
  exists [8226], (PyB [226; 128; 162]). split; [|split].
  - constructor; [left; reflexivity|constructor].
  - vm_compute. reflexivity.
  - intros [E _]. discriminate.
Qed.

Theorem C03_percent_encode_safe : forall u, Forall scalar u ->
  exists e, percent_encode (PyU u) = Ok e /\ uri_safe (raw e).
Proof.
  intros u H. unfold percent_encode, percent_encode_. rewrite chars_scalar by assumption. cbn [bind].
  eexists. split; [reflexivity|]. destruct (existsb snd _); apply pct_safe_unicode; assumption.
Qed.
Print Assumptions C03_percent_encode_safe.
Theorem C03_percent_encode_safe_bytes : forall b, Forall (fun c => c < 256) b ->
  exists e, percent_encode (PyB b) = Ok e /\ uri_safe (raw e).
Proof. intros b H. eexists. split; [reflexivity|]. now apply pct_safe_bytes. Qed.
Print Assumptions C03_percent_encode_safe_bytes.

Example C03_case : percent_encode (PyU [97; 32; 233; 8364; 128512; 47]) = Ok (PyU (lit "a%20%C3%A9%E2%82%AC%F0%9F%98%80%2F")).
Proof. vm_compute. reflexivity. Qed.

(** ** C04 *)
Theorem C04_remove_dot_segments_rfc : forall p,
  rfc_remove_dot_segments (lit "/" ++ p) = Some (remove_dot_segments (lit "/" ++ p)).
Proof. exact remove_dots_rfc. Qed.
Print Assumptions C04_remove_dot_segments_rfc.
Example C04_case : remove_dot_segments (lit "/a/b/c/./../../g") = lit "/a/g".
Proof. reflexivity. Qed.
Example C04_spec_case : rfc_remove_dot_segments (lit "/a/b/c/./../../g") = Some (lit "/a/g").
Proof. reflexivity. Qed.

(** ** C05 *)
Theorem C05_no_dot_segments_left : forall p, no_dot_segment (remove_dot_segments (lit "/" ++ p)).
Proof. exact remove_dots_no_dot. Qed.
Print Assumptions C05_no_dot_segments_left.
Theorem C05_result_is_absolute : forall p, exists q, remove_dot_segments (lit "/" ++ p) = lit "/" ++ q.
Proof. intro p. destruct (remove_dots_segments p) as (segs & _ & _ & E). exists (join [47] segs). exact E. Qed.
Print Assumptions C05_result_is_absolute.
Theorem C05_idempotent : forall p,
  remove_dot_segments (remove_dot_segments (lit "/" ++ p)) = remove_dot_segments (lit "/" ++ p).
Proof. exact remove_dots_idem_abs. Qed.
Print Assumptions C05_idempotent.
Theorem C05_plain_paths_unchanged : forall p, no_dot_segment (lit "/" ++ p) -> remove_dot_segments (lit "/" ++ p) = lit "/" ++ p.
Proof. exact remove_dots_fix. Qed.
Print Assumptions C05_plain_paths_unchanged.
Example C05_case : remove_dot_segments (lit "/../..//.././a/..") = lit "/".
Proof. reflexivity. Qed.

(** ** C06 *)
Theorem C06_absolutize_rfc_partial : forall R B,
  legal R -> legal B -> frag_lf_free R -> frag_lf_free B ->
  scheme R = None -> has_scheme (recompose B) ->
  (authority B <> None \/ exists p, path B = lit "/" ++ p) ->
  ~ (authority R = None /\ path R = [] /\ query R = Some []) ->
  exists T, rfc_transform R B = Some T /\ absolutize (recompose R) (recompose B) None = Ok (recompose T).
Proof. exact absolutize_relative. Qed.
Print Assumptions C06_absolutize_rfc_partial.

(** A reference with a scheme and no dot segments to remove. *)
Theorem C06_absolute_reference_partial : forall R B s,
  legal R -> scheme R = Some s -> scheme_name s -> (path R = [] \/ exists p, path R = lit "/" ++ p) ->
  no_dot_segment (path R) ->
  rfc_transform R B = Some R /\ forall b, absolutize (recompose R) b None = Ok (recompose R).
Proof.
  intros R B s L HS HN HP ND. split.
  - unfold rfc_transform. rewrite HS. rewrite model_dots_rfc by exact HP. cbn [omap].
    replace (remove_dot_segments (path R)) with (path R). { rewrite <- HS. destruct R; reflexivity. }
    destruct HP as [->|[p Hp]]; [reflexivity|]. rewrite Hp in *. symmetry. now apply remove_dots_fix.
  - intro b. apply absolutize_abs_ref. eapply recompose_absolute; eauto.
Qed.
Print Assumptions C06_absolute_reference_partial.

Example C06_case : absolutize (lit "../g;x=1/../y?q#f") (lit "http://a/b/c/d;p?q") None = Ok (lit "http://a/b/y?q#f").
Proof. vm_compute. reflexivity. Qed.
Example C06_hypotheses :
  let R := Comp None None (lit "../g") None (Some (lit "f")) in
  let B := Comp (Some (lit "http")) (Some (lit "a")) (lit "/b/c/d;p") (Some (lit "q")) None in
  legal R /\ legal B /\ frag_lf_free R /\ frag_lf_free B /\ has_scheme (recompose B) /\
  rfc_transform R B = Some (Comp (Some (lit "http")) (Some (lit "a")) (lit "/b/g") None (Some (lit "f"))).
Proof.
  cbv zeta. split; [concrete "../g#f"%string|]. split; [concrete "http://a/b/c/d;p?q"%string|].
  split; [intros f E; injection E as <-; cbn; intuition discriminate|]. split; [discriminate|].
  split; [apply is_absolute_iff; reflexivity|vm_compute; reflexivity].
Qed.

(** The excluded cases do deviate from the RFC. *)
Theorem C06_empty_query_refuted : exists R B T,
  scheme R = None /\ rfc_transform R B = Some T /\ legal R /\ legal B /\
  absolutize (recompose R) (recompose B) None <> Ok (recompose T).
Proof.
  exists (Comp None None [] (Some []) None), (Comp (Some (lit "s")) (Some (lit "h")) (lit "/a") (Some (lit "q")) None).
  eexists. split; [reflexivity|]. split; [reflexivity|]. split; [|split].
  - concrete "?"%string.
  - concrete "s://h/a?q"%string.
  - vm_compute. discriminate.
Qed.
Theorem C06_absolute_ref_dots_refuted :
  absolutize (lit "s://h/a/../b") (lit "http://x/") None = Ok (lit "s://h/a/../b") /\
  rfc_transform (Comp (Some (lit "s")) (Some (lit "h")) (lit "/a/../b") None None)
                (Comp (Some (lit "http")) (Some (lit "x")) (lit "/") None None)
  = Some (Comp (Some (lit "s")) (Some (lit "h")) (lit "/b") None None).
Proof. split; vm_compute; reflexivity. Qed.

(** ** C07 *)
Theorem C07_absolutize_errors : forall r b limit e,
  ~ In 10 r -> ~ In 10 b ->
  absolutize r b limit = Err e ->
  ~ has_scheme r /\
  ((~ has_scheme b /\ e = IriError RELATIVE_BASE_URI) \/
   (exists s t l, b = s ++ lit ":" ++ t /\ scheme_name s /\ limit = Some l /\ l <> [] /\ ~ In s l /\ e = IriError UNSUPPORTED_SCHEME)).
Proof.
  intros r b limit e Hr Hb H. unfold absolutize in H.
  destruct (is_absolute r) eqn:Er; [discriminate|].
  assert (NR : ~ has_scheme r). { intro K. apply is_absolute_iff in K. congruence. }
  split; [exact NR|]. destruct (is_absolute b) eqn:Eb; cbn [negb] in H.
  2:{ left. injection H as <-. split; [|reflexivity]. intro K. apply is_absolute_iff in K. congruence. }
  right. pose proof (absolutize_total r b Hr Hb Eb) as (t & Ht & _). unfold absolutize in Ht. rewrite Er, Eb in Ht. cbn [negb] in Ht.
  destruct limit as [[|l ls]|].
  - cbn [negb] in H. congruence.
  - destruct (get_scheme b) as [s|] eqn:Es.
    + destruct (existsb (str_eqb s) (l :: ls)) eqn:Ex; cbn [negb] in H; [congruence|].
      injection H as <-. apply get_scheme_inv in Es as (t' & -> & Hs).
      exists s, t', (l :: ls). repeat split; auto; try discriminate.
      intro Hin. assert (existsb (str_eqb s) (l :: ls) = true); [|congruence].
      apply existsb_exists. exists s. split; auto. apply str_eqb_refl.
    + cbn [negb] in H. congruence.
  - cbn [negb] in H. congruence.
Qed.
Print Assumptions C07_absolutize_errors.

(** Missing for the full claim: a reference such as "1:x", whose text before
    the colon is not a scheme name, is not resolved and is returned without a
    valid scheme. *)
Theorem C07_result_absolute_partial : forall r b, ~ In 10 r -> ~ In 10 b -> has_scheme b ->
  exists t, absolutize r b None = Ok t /\
    (has_scheme t \/ exists c s, legal c /\ recompose c = r /\ scheme c = Some s /\ ~ scheme_name s).
Proof.
  intros r b Hr Hb HB. apply is_absolute_iff in HB. destruct (absolutize_total r b Hr Hb HB) as (t & Ht & H).
  exists t. split; auto. destruct H as [H|H]; auto. left. now apply is_absolute_iff.
Qed.
Print Assumptions C07_result_absolute_partial.
Theorem C07_result_absolute_refuted : exists r b t, has_scheme b /\ absolutize r b None = Ok t /\ ~ has_scheme t.
Proof.
  exists (lit "1:x"), (lit "http://h/"), (lit "1:x"). split; [|split].
  - apply is_absolute_iff. reflexivity.
  - vm_compute. reflexivity.
  - intro H. apply is_absolute_iff in H. discriminate.
Qed.
Theorem C07_absolute_reference_unchanged : forall r b limit, has_scheme r -> absolutize r b limit = Ok r.
Proof. intros r b l H. apply absolutize_abs_ref. now apply is_absolute_iff. Qed.
Print Assumptions C07_absolute_reference_unchanged.
Theorem C07_same_document : forall B f, legal B -> has_scheme (recompose B) ->
  absolutize (lit "#" ++ f) (recompose B) None
  = Ok (recompose (Comp (scheme B) (authority B) (path B) (query B) (Some f))).
Proof.
  intros B f L H. apply is_absolute_iff in H. unfold absolutize. 
  assert (NA : is_absolute (lit "#" ++ f) = false) by reflexivity.
  rewrite NA, H. cbn [negb lit app]. change (lit "#" ++ f) with (35 :: f). cbv iota.
  change (35 =? cHASH) with true. cbv iota. rewrite hd_split_hash by assumption.
  f_equal. unfold recompose. cbn [scheme authority path query fragment]. rewrite app_nil_r, <- !app_assoc. reflexivity.
Qed.
Print Assumptions C07_same_document.
Example C07_case : has_scheme (lit "http://h/p") /\ ~ has_scheme (lit "p").
Proof. split; [apply is_absolute_iff; reflexivity|]. intro H. apply is_absolute_iff in H. discriminate. Qed.

(** ** C08 *)

(** Where the two paths diverge at segments [x] and [y] after the common
    segments [pre], relativize returns a reference that resolves to the target. *)
Theorem C08_relativize_inverse_partial : forall T B pre x trest y brest,
  legal T -> legal B -> frag_lf_free T -> frag_lf_free B ->
  scheme T = scheme B -> authority T = authority B ->
  has_scheme (recompose T) -> has_scheme (recompose B) ->
  no_dot_segment (path T) -> no_dot_segment (path B) ->
  split1 47 (path T) = [] :: pre ++ x :: trest ->
  split1 47 (path B) = [] :: pre ++ y :: brest ->
  x <> y ->
  (brest = [] -> ~ In 58 x) ->
  (x = [] -> trest = [] -> brest <> []) ->
  (x = [] -> trest <> [] -> pre <> []) ->
  exists r, relativize (recompose T) (recompose B) false = Ok (Some r) /\
            absolutize r (recompose B) None = Ok (recompose T).
Proof.
  intros T B pre x tr y br H1 H2 H3 H4 H5 H6 H7 H8 H9 H10 H11 H12 H13 H14 H15 H16.
  destruct (relativize_inverse_lemma T B pre x tr y br false H1 H2 H3 H4 H5 H6 H7 H8 H9 H10 H11 H12 H13 H14 H15 H16) as [E A].
  destruct E as [r E]; auto. exists r. split; auto.
Qed.
Print Assumptions C08_relativize_inverse_partial.
Theorem C08_relativize_subpath_partial : forall T B pre x trest y brest r,
  legal T -> legal B -> frag_lf_free T -> frag_lf_free B ->
  scheme T = scheme B -> authority T = authority B ->
  has_scheme (recompose T) -> has_scheme (recompose B) ->
  no_dot_segment (path T) -> no_dot_segment (path B) ->
  split1 47 (path T) = [] :: pre ++ x :: trest ->
  split1 47 (path B) = [] :: pre ++ y :: brest ->
  x <> y ->
  (brest = [] -> ~ In 58 x) ->
  (x = [] -> trest = [] -> brest <> []) ->
  (x = [] -> trest <> [] -> pre <> []) ->
  relativize (recompose T) (recompose B) true = Ok (Some r) ->
  absolutize r (recompose B) None = Ok (recompose T).
Proof.
  intros T B pre x tr y br r H1 H2 H3 H4 H5 H6 H7 H8 H9 H10 H11 H12 H13 H14 H15 H16.
  apply (relativize_inverse_lemma T B pre x tr y br true H1 H2 H3 H4 H5 H6 H7 H8 H9 H10 H11 H12 H13 H14 H15 H16).
Qed.
Print Assumptions C08_relativize_subpath_partial.
Example C08_case : relativize (lit "http://h/a/b/c/d?q") (lit "http://h/a/x/y") false = Ok (Some (lit "../b/c/d?q"))
  /\ absolutize (lit "../b/c/d?q") (lit "http://h/a/x/y") None = Ok (lit "http://h/a/b/c/d?q").
Proof. split; vm_compute; reflexivity. Qed.

Example C08_hypotheses :
  let T := Comp (Some (lit "http")) (Some (lit "h")) (lit "/a/b/c") (Some (lit "q")) None in
  let B := Comp (Some (lit "http")) (Some (lit "h")) (lit "/a/x/y") None None in
  legal T /\ legal B /\ has_scheme (recompose T) /\ no_dot_segment (path T) /\
  split1 47 (path T) = [] :: [lit "a"] ++ lit "b" :: [lit "c"] /\ split1 47 (path B) = [] :: [lit "a"] ++ lit "x" :: [lit "y"].
Proof.
  cbv zeta. split; [concrete "http://h/a/b/c?q"%string|]. split; [concrete "http://h/a/x/y"%string|].
  split; [apply is_absolute_iff; reflexivity|]. split; [|split; reflexivity].
  split; vm_compute; intuition discriminate.
Qed.

(** The full claim fails: prefix paths, empty references, colons, queries. *)
Definition bad_relativize (t b : str) : Prop :=
  exists r, relativize t b false = Ok (Some r) /\ absolutize r b None <> Ok t.
Theorem C08_relativize_refuted :
  bad_relativize (lit "s://ex/a/b") (lit "s://ex/a") /\          (* base is a prefix of the target *)
  bad_relativize (lit "http://h/a") (lit "http://h/a/b") /\      (* target is a prefix of the base *)
  bad_relativize (lit "http://h/a/") (lit "http://h/a/b") /\     (* empty reference *)
  bad_relativize (lit "http://h/a") (lit "http://h/a?q") /\      (* the base query is inherited *)
  bad_relativize (lit "s://ex/a:b") (lit "s://ex/") /\           (* colon in the first segment *)
  bad_relativize (lit "s://ex//b") (lit "s://ex/c/d").           (* leading empty segment *)
Proof. repeat split; (eexists; split; [vm_compute; reflexivity|vm_compute; discriminate]). Qed.

(** ** C09 *)
Theorem C09_normalize_case_idempotent : forall doHost u, ~ In 10 u ->
  exists v, normalize_case doHost u = Ok v /\ normalize_case doHost v = Ok v /\ lower v = lower u.
Proof. exact normalize_case_idem_lemma. Qed.
Print Assumptions C09_normalize_case_idempotent.
Theorem C09_normalize_percent_idempotent_partial : forall s, pct_wellformed s ->
  exists v, normalize_percent_encoding (PyB s) = Ok (PyB v) /\
            normalize_percent_encoding (PyB v) = Ok (PyB v) /\
            pct_wellformed v /\
            percent_decode (PyB v) = percent_decode (PyB s).
Proof.
  intros s H. eexists. split; [reflexivity|]. cbn [normalize_percent_encoding percent_decode percent_decode_]. split; [|split].
  - now rewrite norm_pct_idem.
  - now apply norm_pct_wf.
  - now rewrite norm_pct_meaning.
Qed.
Print Assumptions C09_normalize_percent_idempotent_partial.
(** Only triplets of unreserved characters are decoded. *)
Theorem C09_decoded_set : forall n, mem n DECODABLE = true <-> rfc_unreserved n.
Proof. intro n. rewrite decodable_unreserved. apply unreserved_rfc. Qed.
Print Assumptions C09_decoded_set.
Theorem C09_normalize_percent_refuted :
  normalize_percent_encoding (PyB (lit "%4%31")) = Ok (PyB (lit "%41")) /\
  normalize_percent_encoding (PyB (lit "%41")) = Ok (PyB (lit "A")).
Proof. split; vm_compute; reflexivity. Qed.
Example C09_case : normalize_case true (lit "HTTP://U@Ex.COM:80/%7e%aF/Q?%c3#%d4") = Ok (lit "http://U@ex.com:80/%7E%aF/Q?%C3#%D4").
Proof. vm_compute. reflexivity. Qed.
Example C09_case2 : pct_wellformed (lit "a%7Eb%2fc").
Proof. repeat (apply pwf_char; [discriminate|] || (apply pwf_pct; [cbn; tauto|cbn; tauto|])). constructor. Qed.

(** ** C10 *)

(** [normalized]: what XML calls a normalized public identifier. *)
Theorem C10_public_id_roundtrip : forall p, Forall (fun c => c < 256) p ->
  urn_to_public_id (public_id_to_urn p) = Ok (condense (strip p)).
Proof. exact urn_roundtrip. Qed.
Print Assumptions C10_public_id_roundtrip.

(** No leading or trailing space, no white space but single spaces. *)
Definition normalized_pubid (p : str) : Prop :=
  (forall c, In c p -> 33 <= c) \/
  exists words, words <> [] /\ Forall (fun w => w <> [] /\ forall c, In c w -> 33 <= c) words /\ p = join [32] words.

Lemma cond_word : forall w s, (forall c, In c w -> 33 <= c) -> condense (w ++ s) = w ++ condense s.
Proof.
  induction w as [|c w IH]; intros s H; [reflexivity|]. cbn [app condense].
  assert (33 <= c) by (apply H; now left).
  assert (is_xmlspace c = false). { unfold is_xmlspace. apply mem_false. simpl. intuition lia. }
  rewrite H1. f_equal. apply IH. intros d Hd. apply H. now right.
Qed.
Lemma cond_words : forall ws, Forall (fun w => w <> [] /\ forall c, In c w -> 33 <= c) ws -> condense (join [32] ws) = join [32] ws.
Proof.
  induction ws as [|w ws IH]; intro H; [reflexivity|]. inversion H as [|? ? [Hn Hc] Hws]; subst.
  destruct ws as [|w' ws].
  - cbn [join]. rewrite <- (app_nil_r w) at 1. rewrite cond_word by assumption. apply app_nil_r.
  - rewrite join_cons2. rewrite cond_word by assumption. f_equal. cbn [app].
    specialize (IH Hws). inversion Hws as [|? ? [Hn' Hc'] _]; subst. destruct w' as [|c w']; [congruence|].
    rewrite join_hd in *. cbn [condense].
    assert (33 <= c) by (apply Hc'; now left).
    assert (E : is_xmlspace c = false). { unfold is_xmlspace. apply mem_false. simpl. intuition lia. }
    change (is_xmlspace 32) with true. cbv iota. rewrite E. cbn [condense] in IH. rewrite E in IH. now rewrite IH.
Qed.
Lemma lstrip_id : forall s, (forall c t, s = c :: t -> 33 <= c) -> lstrip s = s.
Proof.
  intros [|c s] H; [reflexivity|]. cbn [lstrip]. assert (33 <= c) by (eapply H; reflexivity).
  assert (E : is_pyspace c = false). { unfold is_pyspace. destruct (N.leb_spec 9 c), (N.leb_spec c 13), (N.eqb_spec c 32); simpl; auto; lia. }
  now rewrite E.
Qed.
Lemma strip_words : forall p, normalized_pubid p -> condense (strip p) = p.
Proof.
  intros p H.
  assert (S : strip p = p).
  { unfold strip. assert (P1 : forall c t, p = c :: t -> 33 <= c).
    { intros c t ->. destruct H as [H|(ws & Hne & HF & E)]; [apply H; now left|].
      destruct ws as [|w ws]; [congruence|]. inversion HF as [|? ? [Hn Hc] _]; subst. destruct w as [|d w]; [congruence|].
      rewrite join_hd in E. injection E as -> _. apply Hc. now left. }
    rewrite (lstrip_id p P1). rewrite lstrip_id; [apply rev_involutive|].
    intros c t E. assert (Ep : p = rev t ++ [c]) by (rewrite <- (rev_involutive p), E; reflexivity).
    destruct H as [H|(ws & Hne & HF & E')]; [apply H; rewrite Ep; apply in_or_app; right; now left|].
    destruct (exists_last Hne) as (ws' & w & ->). apply Forall_app in HF as [_ HF]. inversion HF as [|? ? [Hn Hc] _]; subst w.
    assert (L : exists pre, join [32] (ws' ++ [x]) = pre ++ x).
    { destruct ws' as [|v ws']; [exists []; reflexivity|]. rewrite join_app_ne by discriminate. exists (join [32] (v :: ws') ++ [32]). now rewrite <- app_assoc. }
    destruct L as [pre L]. destruct (exists_last Hn) as (x' & d & ->).
    rewrite L, app_assoc in E'. rewrite E' in Ep. apply app_inj_tail in Ep as [_ ->]. apply Hc. apply in_or_app; right; now left. }
  rewrite S. destruct H as [H|(ws & Hne & HF & E)].
  - rewrite <- (app_nil_r p) at 1. rewrite cond_word by assumption. apply app_nil_r.
  - rewrite E. now apply cond_words.
Qed.

Theorem C10_normalized_public_id_roundtrip : forall p, Forall (fun c => c < 256) p -> normalized_pubid p ->
  urn_to_public_id (public_id_to_urn p) = Ok p.
Proof. intros p H N. rewrite urn_roundtrip by assumption. now rewrite strip_words. Qed.
Print Assumptions C10_normalized_public_id_roundtrip.
Example C10_case : public_id_to_urn (lit "-//OASIS//DTD DocBook XML V4.1.2//EN::x;y?") = lit "urn:publicid:-:OASIS:DTD+DocBook+XML+V4.1.2:EN;x%3By%3F"
  /\ normalized_pubid (lit "-//OASIS//DTD DocBook").
Proof.
  split; [vm_compute; reflexivity|]. right. exists [lit "-//OASIS//DTD"; lit "DocBook"]. split; [discriminate|]. split; [|reflexivity].
  repeat constructor; try discriminate; simpl; intuition (subst; lia).
Qed.

(** ** C11 *)
Theorem C11_posix_path_roundtrip : forall local cwd aa p, Forall (fun c => c < 256) p -> no_dot_segment (lit "/" ++ p) ->
  uri_to_os_path_posix local cwd aa (os_path_to_uri_posix local cwd aa (lit "/" ++ p)) = Ok (lit "/" ++ p).
Proof.
  intros local cwd aa p H N. change (lit "/" ++ p) with (47 :: p) in *. rewrite os_path_roundtrip by assumption.
  f_equal. now apply remove_dots_fix.
Qed.
Print Assumptions C11_posix_path_roundtrip.
(** With dot segments the path comes back resolved. *)
Theorem C11_posix_path_normalized : forall local cwd aa p, Forall (fun c => c < 256) p ->
  uri_to_os_path_posix local cwd aa (os_path_to_uri_posix local cwd aa (lit "/" ++ p)) = Ok (remove_dot_segments (lit "/" ++ p)).
Proof. exact os_path_roundtrip. Qed.
Print Assumptions C11_posix_path_normalized.
Example C11_case : os_path_to_uri_posix true [] true (lit "/a b/%2F?#") = lit "file:///a%20b/%252F%3F%23".
Proof. vm_compute. reflexivity. Qed.

(** ** C12 *)
Theorem C12_ascii_unchanged : forall s, Forall (fun c => c < 128) s -> iri_to_uri s = Ok s.
Proof. exact (iri_ascii None). Qed.
Print Assumptions C12_ascii_unchanged.
(** Below the surrogates the conversion succeeds, is ASCII and decodes back
    (if no percent sign was there before). *)
Theorem C12_iri_to_uri_partial : forall s, Forall (fun c => c < 128 \/ (160 <= c /\ c < 55296)) s ->
  exists r, iri_to_uri s = Ok r /\ Forall (fun c => c < 128) r /\ (~ In 37 s -> percent_decode (PyU r) = Ok (PyU s)).
Proof. exact iri_ok. Qed.
Print Assumptions C12_iri_to_uri_partial.
Theorem C12_result_bound : forall s r, Forall (fun c => c < 1114112) s -> iri_to_uri s = Ok r -> Forall (fun c => c <= 128) r.
Proof. intros s r H E. eapply iri_ascii_out; eauto. exact I. Qed.
Print Assumptions C12_result_bound.
(** U+0080 is passed through, characters from U+E000 up are refused, a lone
    high surrogate is dropped. *)
Theorem C12_iri_to_uri_refuted :
  iri_to_uri [128] = Ok [128] /\ iri_to_uri [57344] = Err ValueError /\ iri_to_uri [65; 55296; 66] = Ok [65; 66].
Proof. repeat split; vm_compute; reflexivity. Qed.
Example C12_case : iri_to_uri (lit "http://h/" ++ [233]) = Ok (lit "http://h/%C3%A9").
Proof. vm_compute. reflexivity. Qed.
