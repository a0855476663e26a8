(** * relativize is inverse to absolutize when the paths diverge *)
From Coq Require Import NArith ZArith String List Bool Lia Arith.
From Verif Require Import PyStr PyErr Regex Utf8 IriModel IriSpec IriSplit IriDots IriAbs.
Import ListNotations.
Open Scope N_scope.

Lemma rfc_segs_push : forall l rest keep, Forall plain l -> rest <> [] ->
  rfc_segs keep (l ++ rest) = rfc_segs (rev l ++ keep) rest.
Proof.
  induction l as [|s l IH]; intros rest keep H Hne; [reflexivity|]. inversion H as [|? ? (H1 & H2 & _) HF]; subst.
  cbn [app rev]. rewrite <- app_assoc. cbn [app]. rewrite <- IH by assumption.
  assert (NE : l ++ rest <> []). { intro E. apply app_eq_nil in E as [_ E]. auto. }
  destruct (l ++ rest) as [|z w] eqn:E; [congruence|].
  cbn [rfc_segs]. destruct (str_eqb_spec s seg_dotdot); [congruence|]. destruct (str_eqb_spec s seg_dot); [congruence|]. reflexivity.
Qed.

Lemma rfc_segs_pop : forall k rest keep, rest <> [] ->
  rfc_segs keep (repeat seg_dotdot k ++ rest) = rfc_segs (skipn k keep) rest.
Proof.
  induction k as [|k IH]; intros rest keep Hne; [reflexivity|].
  cbn [repeat app]. assert (NE : repeat seg_dotdot k ++ rest <> []). { intro E. apply app_eq_nil in E as [_ E]. auto. }
  assert (T : rfc_segs keep (seg_dotdot :: (repeat seg_dotdot k ++ rest)) = rfc_segs (tl keep) (repeat seg_dotdot k ++ rest)).
  { destruct (repeat seg_dotdot k ++ rest) eqn:E; [congruence|]. reflexivity. }
  rewrite T, IH by assumption. f_equal. destruct keep; [now rewrite !skipn_nil|reflexivity].
Qed.

(** Going up over what was just entered. *)
Lemma up_and_down : forall pre mid rest, Forall plain (pre ++ mid) -> Forall plain rest -> rest <> [] ->
  remove_dot_segments (cSLASH :: join [cSLASH] (pre ++ mid ++ repeat seg_dotdot (length mid) ++ rest))
  = cSLASH :: join [cSLASH] (pre ++ rest).
Proof.
  intros pre mid rest H Hr Hne. rewrite model_abs. apply Forall_app in H as [Hp Hm].
  rewrite split1_join.
  - rewrite rfc_segs_push; auto.
    2:{ intro E. apply app_eq_nil in E as [_ E]. apply app_eq_nil in E as [_ E]. auto. }
    rewrite rfc_segs_push; auto.
    2:{ intro E. apply app_eq_nil in E as [_ E]. auto. }
    rewrite rfc_segs_pop by assumption. rewrite app_nil_r.
    rewrite skipn_app, skipn_all2 by (rewrite rev_length; lia). rewrite rev_length, Nat.sub_diag. cbn [app skipn].
    rewrite rfc_segs_id by assumption. rewrite <- rev_app_distr. rewrite buf_join.
    + now rewrite rev_involutive.
    + intro E. apply (f_equal (@rev str)) in E. rewrite rev_involutive in E. apply app_eq_nil in E as [_ E]. auto.
  - intro E. apply app_eq_nil in E as [_ E]. apply app_eq_nil in E as [_ E]. apply app_eq_nil in E as [_ E]. auto.
  - assert (P : forall l, Forall plain l -> Forall (fun w => ~ In cSLASH w) l).
    { intros l Hl. eapply Forall_impl; [|exact Hl]. intros w (_ & _ & Hw). exact Hw. }
    apply Forall_app; split; auto. apply Forall_app; split; auto. apply Forall_app; split; auto.
    apply Forall_forall. intros w Hw. apply repeat_spec in Hw. subst. simpl. intuition discriminate.
Qed.

Lemma skip_dot : forall pre rest, Forall plain pre -> Forall plain rest -> rest <> [] ->
  remove_dot_segments (cSLASH :: join [cSLASH] (pre ++ seg_dot :: rest)) = cSLASH :: join [cSLASH] (pre ++ rest).
Proof.
  intros pre rest H Hr Hne. rewrite model_abs. rewrite split1_join.
  - rewrite rfc_segs_push by (auto; discriminate). 
    destruct rest as [|z rest]; [congruence|].
    change (rfc_segs (rev pre ++ []) (seg_dot :: z :: rest)) with (rfc_segs (rev pre ++ []) (z :: rest)).
    rewrite rfc_segs_id by assumption. rewrite app_nil_r, <- rev_app_distr. rewrite buf_join.
    + now rewrite rev_involutive.
    + intro E. apply (f_equal (@rev str)) in E. rewrite rev_involutive in E. apply app_eq_nil in E as [_ E]. discriminate.
  - intro E. apply app_eq_nil in E as [_ E]. discriminate.
  - assert (P : forall l, Forall plain l -> Forall (fun w => ~ In cSLASH w) l).
    { intros l Hl. eapply Forall_impl; [|exact Hl]. intros w (_ & _ & Hw). exact Hw. }
    apply Forall_app; split; auto. constructor; auto. simpl. intuition discriminate.
Qed.

Lemma common_segs_div : forall pre x tr y br, x <> y -> common_segs (pre ++ x :: tr) (pre ++ y :: br) = length pre.
Proof.
  induction pre as [|p pre IH]; intros x tr y br H; cbn [app common_segs length].
  - destruct (str_eqb_spec x y); [congruence|reflexivity].
  - rewrite str_eqb_refl. cbn [andb].
    destruct (pre ++ y :: br) as [|? ?] eqn:E1; [destruct pre; discriminate|].
    destruct (pre ++ x :: tr) as [|? ?] eqn:E2; [destruct pre; discriminate|].
    cbn [negb andb]. f_equal. rewrite <- E1, <- E2. apply IH. exact H.
Qed.

Lemma join_app_ne : forall sep a b, a <> [] -> b <> [] -> join sep (a ++ b) = join sep a ++ sep ++ join sep b.
Proof.
  intros sep a b Ha Hb. induction a as [|w a IH]; [congruence|]. destruct a as [|w' a].
  - cbn [app]. now rewrite join_cons_ne.
  - change ((w :: w' :: a) ++ b) with (w :: ((w' :: a) ++ b)).
    rewrite join_cons_ne; [|intro E; discriminate E]. rewrite IH by discriminate. rewrite join_cons2. now rewrite <- !app_assoc.
Qed.

Lemma repeat_str_join : forall k rest, rest <> [] ->
  repeat_str [cDOT; cDOT; cSLASH] k ++ join [cSLASH] rest = join [cSLASH] (repeat seg_dotdot k ++ rest).
Proof.
  induction k as [|k IH]; intros rest H; [reflexivity|].
  cbn [repeat_str repeat]. change ((seg_dotdot :: repeat seg_dotdot k) ++ rest) with (seg_dotdot :: (repeat seg_dotdot k ++ rest)).
  rewrite join_cons_ne. 2:{ intro E. apply app_eq_nil in E as [_ E]. auto. }
  rewrite <- IH by assumption. rewrite <- !app_assoc. reflexivity.
Qed.

(** Directory of a path given by segments. *)
Lemma rbreak_dir : forall segs z, ~ In cSLASH z ->
  fst (rbreak1 cSLASH (cSLASH :: join [cSLASH] (segs ++ [z]))) = cSLASH :: flat_map (fun s => s ++ [cSLASH]) segs.
Proof.
  intros segs z Hz.
  assert (E : cSLASH :: join [cSLASH] (segs ++ [z]) = (removelast (cSLASH :: flat_map (fun s => s ++ [cSLASH]) segs)) ++ cSLASH :: z
            /\ removelast (cSLASH :: flat_map (fun s => s ++ [cSLASH]) segs) ++ [cSLASH] = cSLASH :: flat_map (fun s => s ++ [cSLASH]) segs).
  { induction segs as [|s segs [IH1 IH2]] using rev_ind; [split; reflexivity|].
    assert (F : cSLASH :: flat_map (fun s => s ++ [cSLASH]) (segs ++ [s]) = (cSLASH :: flat_map (fun s => s ++ [cSLASH]) segs ++ s) ++ [cSLASH]).
    { rewrite flat_map_app. cbn [flat_map]. rewrite app_nil_r. cbn [app]. now rewrite <- app_assoc. }
    rewrite F. rewrite removelast_last. split; [|reflexivity].
    clear IH1 IH2 F. rewrite <- app_assoc. cbn [app]. f_equal. 
    clear Hz. induction segs as [|t segs IH]; [cbn [app flat_map]; rewrite join_cons2; reflexivity|].
    rewrite <- !app_comm_cons. rewrite join_cons_ne by (destruct segs; discriminate).
    rewrite <- app_assoc in IH. cbn [app] in IH. rewrite <- app_assoc. cbn [app]. rewrite IH. cbn [flat_map]. rewrite <- !app_assoc. reflexivity. }
  destruct E as [E1 E2]. rewrite E1, rbreak1_app by assumption. exact E2.
Qed.

Lemma flat_join : forall segs rest, rest <> [] -> flat_map (fun s => s ++ [cSLASH]) segs ++ join [cSLASH] rest = join [cSLASH] (segs ++ rest).
Proof.
  induction segs as [|s segs IH]; intros rest H; [reflexivity|].
  cbn [flat_map]. rewrite <- !app_assoc. rewrite IH by assumption. change ((s :: segs) ++ rest) with (s :: (segs ++ rest)).
  rewrite join_cons_ne; [reflexivity|]. intro E. apply app_eq_nil in E as [_ E]. auto.
Qed.

Lemma plain_of : forall p segs, split1 cSLASH p = segs -> no_dot_segment p -> Forall plain segs.
Proof.
  intros p segs <- [H1 H2]. apply Forall_forall. intros w Hw. repeat split.
  - intros ->. auto.
  - intros ->. auto.
  - pose proof (split1_pieces cSLASH p) as F. rewrite Forall_forall in F. auto.
Qed.

Lemma norm_id : forall c, legal c -> frag_lf_free c -> no_dot_segment (path c) ->
  normalize_path_segments_in_uri (recompose c) = Ok (recompose c).
Proof.
  intros c L F N. unfold normalize_path_segments_in_uri. rewrite split_legal by auto. cbn [bind].
  destruct c as [s a p q f]. cbn [to_parts u_scheme u_auth u_path u_query u_frag scheme authority path query fragment] in *.
  assert (E : normalize_path_segments p = p).
  { unfold normalize_path_segments. destruct p as [|x p]; [reflexivity|]. destruct (N.eqb_spec x cSLASH); [|reflexivity].
    subst. now apply remove_dots_fix. }
  rewrite E. rewrite unsplit_recompose. reflexivity.
Qed.

Lemma noscheme_path : forall w ws a b, ~ In 58 w -> join [cSLASH] (w :: ws) = a ++ 58 :: b -> In 47 a.
Proof.
  intros w ws a b Hw E. destruct (in_dec N.eq_dec 47 a) as [H|H]; [exact H|]. exfalso.
  assert (P : exists t, join [cSLASH] (w :: ws) = w ++ t /\ (t = [] \/ exists t', t = 47 :: t')).
  { destruct ws as [|w' ws]; [exists []; rewrite app_nil_r; auto|]. rewrite join_cons2. eexists; split; [reflexivity|]. right. eexists. reflexivity. }
  destruct P as (t & Et & Ht). rewrite Et in E. clear Et. revert a E H. induction w as [|x w IH]; intros a E H.
  - cbn [app] in E. destruct Ht as [->|[t' ->]].
    + destruct a; discriminate.
    + destruct a as [|y a]; cbn [app] in E; [discriminate|]. injection E as <- _. apply H. now left.
  - destruct a as [|y a]; cbn [app] in E.
    + injection E as -> _. apply Hw. now left.
    + injection E as _ E. apply (IH) with (a := a); auto; intro; [apply Hw|apply H]; now right.
Qed.

Lemma join_no : forall x l, (forall w, In w l -> ~ In x w) -> x <> cSLASH -> ~ In x (join [cSLASH] l).
Proof.
  intros x l H Hx. induction l as [|w l IH]; [auto|]. destruct l as [|w' l].
  - apply H. now left.
  - rewrite join_cons2. intro Hin. apply in_app_or in Hin as [Hin|Hin]; [apply (H w); [now left|auto]|].
    apply in_app_or in Hin as [[Hin|[]]|Hin]; [congruence|]. apply IH; auto. intros v Hv. apply H. now right.
Qed.

Lemma relativize_inverse_lemma : forall T B pre x trest y brest sub,
  legal T -> legal B -> frag_lf_free T -> frag_lf_free B ->
  scheme T = scheme B -> authority T = authority B ->
  has_scheme (recompose T) -> has_scheme (recompose B) ->
  no_dot_segment (path T) -> no_dot_segment (path B) ->
  split1 cSLASH (path T) = [] :: pre ++ x :: trest ->
  split1 cSLASH (path B) = [] :: pre ++ y :: brest ->
  x <> y ->
  (brest = [] -> ~ In 58 x) ->
  (x = [] -> trest = [] -> brest <> []) ->
  (x = [] -> trest <> [] -> pre <> []) ->
  (sub = false \/ brest = [] -> exists r, relativize (recompose T) (recompose B) sub = Ok (Some r)) /\
  (forall r, relativize (recompose T) (recompose B) sub = Ok (Some r) ->
     absolutize r (recompose B) None = Ok (recompose T)).
Proof.
  intros T B pre x trest y brest sub LT LB FT FB ES EA HT HB NT NB ST SB Hxy Hcol Hend Hmid.
  assert (PT : path T = cSLASH :: join [cSLASH] (pre ++ x :: trest)).
  { rewrite <- (join_split1 cSLASH (path T)), ST. rewrite join_cons_ne by (destruct pre; discriminate). reflexivity. }
  assert (PB : path B = cSLASH :: join [cSLASH] (pre ++ y :: brest)).
  { rewrite <- (join_split1 cSLASH (path B)), SB. rewrite join_cons_ne by (destruct pre; discriminate). reflexivity. }
  assert (QT : Forall plain (pre ++ x :: trest)). { pose proof (plain_of _ _ ST NT) as Q. inversion Q; auto. }
  assert (QB : Forall plain (pre ++ y :: brest)). { pose proof (plain_of _ _ SB NB) as Q. inversion Q; auto. }
  assert (SpT : split1 cSLASH (join [cSLASH] (pre ++ x :: trest)) = pre ++ x :: trest).
  { rewrite PT in ST. change (split1 cSLASH (cSLASH :: ?z)) with ([] :: split1 cSLASH z) in ST. injection ST; auto. }
  assert (SpB : split1 cSLASH (join [cSLASH] (pre ++ y :: brest)) = pre ++ y :: brest).
  { rewrite PB in SB. change (split1 cSLASH (cSLASH :: ?z)) with ([] :: split1 cSLASH z) in SB. injection SB; auto. }
  assert (AT : is_absolute (recompose T) = true) by now apply is_absolute_iff.
  assert (AB : is_absolute (recompose B) = true) by now apply is_absolute_iff.
  set (rest := x :: trest) in *.
  set (out := fun rel => recompose (Comp None None rel (query T) (fragment T))).
  assert (REL : relativize (recompose T) (recompose B) sub =
    if Nat.eqb (length pre) 0 then
      if Nat.eqb (length brest) 0 then Ok (Some (out (join [cSLASH] rest)))
      else if sub then Ok None else Ok (Some (out (cSLASH :: join [cSLASH] rest)))
    else if Nat.eqb (length brest) 0 then
      match rest with
      | [] :: _ :: _ => Ok (Some (out ([cDOT; cSLASH] ++ join [cSLASH] rest)))
      | _ => Ok (Some (out (join [cSLASH] rest)))
      end
    else if sub then Ok None else Ok (Some (out (repeat_str [cDOT; cDOT; cSLASH] (length brest) ++ join [cSLASH] rest)))).
  { unfold relativize. rewrite AT, AB. cbn [negb orb].
    rewrite !norm_id by assumption. cbn [bind]. rewrite !absolutize_abs_ref by assumption. cbn [bind].
    rewrite !split_legal by assumption. cbn [bind to_parts u_scheme u_auth u_path u_query u_frag].
    assert (OE : forall o, opt_str_eqb o o = true) by (intros [o|]; simpl; auto using str_eqb_refl).
    rewrite ES, EA, !OE. cbn [andb negb]. rewrite PT, PB.
    change (starts_slash (cSLASH :: ?z)) with true. cbn [orb Bool.eqb tl]. cbv iota.
    assert (SK : skipn (length pre) (pre ++ rest) = rest) by (rewrite skipn_app, skipn_all, Nat.sub_diag; reflexivity).
    assert (CS : common_segs (pre ++ rest) (pre ++ y :: brest) = length pre) by (now apply common_segs_div).
    rewrite SpT, SpB, CS, SK. rewrite app_length. cbn [length andb].
    destruct (Nat.eqb_spec (length pre) 0) as [Hp|Hp]; cbn [andb].
    - destruct pre; [|discriminate]. cbn [length app].
      destruct brest as [|b1 brest]; cbn [length Nat.eqb Nat.add]; [reflexivity|].
      destruct sub; reflexivity.
    - destruct (Nat.eqb_spec (length brest) 0) as [Hb|Hb].
      + destruct (Z.ltb_spec 0 (Z.of_nat (length pre + S (length brest)) - Z.of_nat (length pre) - 1)); [lia|].
        unfold rest. destruct x; [destruct trest|]; reflexivity.
      + destruct (Z.ltb_spec 0 (Z.of_nat (length pre + S (length brest)) - Z.of_nat (length pre) - 1)); [|lia].
        replace (Z.to_nat (Z.of_nat (length pre + S (length brest)) - Z.of_nat (length pre) - 1)) with (length brest) by lia.
        destruct sub; reflexivity. }
  (* facts on characters *)
  assert (CH : forall z, In z (lit "?#") -> forall w, In w (pre ++ rest) -> ~ In z w).
  { intros z Hz w Hw Hin. apply (legal_path T LT z Hz). rewrite <- (join_split1 cSLASH (path T)), ST.
    clear - Hw Hin. assert (G : forall l, In w l -> In z (join [cSLASH] l)).
    { induction l as [|v l IH]; [intros []|]. intros [->|Hl].
      - destruct l; [exact Hin|]. rewrite join_cons2. apply in_or_app; now left.
      - destruct l as [|v' l]; [destruct Hl|]. rewrite join_cons2. apply in_or_app; right. apply in_or_app; right. apply IH; auto. }
    apply G. now right. }
  assert (CHR : forall z, In z (lit "?#") -> forall w, In w rest -> ~ In z w).
  { intros z Hz w Hw. apply CH; auto. apply in_or_app. now right. }
  assert (SLQ : forall z, In z (lit "?#") -> z <> cSLASH) by (intros z Hz ->; simpl in Hz; intuition discriminate).
  assert (AVJ : forall l, (forall w, In w l -> In w rest \/ w = seg_dotdot \/ w = seg_dot) -> avoids (join [cSLASH] l) (lit "?#")).
  { intros l Hl z Hz. apply join_no; auto. intros w Hw. destruct (Hl w Hw) as [H|[-> | ->]]; [now apply CHR|..];
      simpl in Hz |- *; intuition (subst; discriminate). }
  assert (PLR : Forall plain rest) by (apply Forall_app in QT; tauto).
  assert (PLP : Forall plain pre) by (apply Forall_app in QT; tauto).
  assert (RNE : rest <> []) by discriminate.
  (* The generic step: a relative path reference [rel] *)
  assert (STEP : forall rel, avoids rel (lit "?#") -> rel <> [] -> (forall p, rel <> 47 :: 47 :: p) ->
     (forall a b, rel = a ++ 58 :: b -> a = [] \/ In 58 a \/ In 47 a) ->
     remove_dot_segments (if starts_slash rel then rel else rfc_merge (authority B) (path B) rel) = path T ->
     absolutize (out rel) (recompose B) None = Ok (recompose T)).
  { intros rel R1 R2 R3 R4 R5. set (R := Comp None None rel (query T) (fragment T)).
    assert (LR : legal R).
    { constructor; cbn [R scheme authority path query fragment].
      - discriminate.
      - discriminate.
      - exact R1.
      - congruence.
      - intros _ p. apply R3.
      - intros _ _ a b. apply R4.
      - apply (legal_query T LT). }
    destruct (absolutize_relative R B LR LB) as (T' & E1 & E2); auto.
    - right. eauto.
    - cbn [R path authority]. tauto.
    - unfold out. fold R. rewrite E2. do 2 f_equal. revert E1. unfold rfc_transform. cbn [R scheme authority path query fragment].
      destruct rel as [|c rel]; [congruence|]. cbn [starts_slash] in R5. change (c =? 47) with (c =? cSLASH).
      assert (HPT : exists p, path T = cSLASH :: p) by eauto.
      destruct (N.eqb_spec c cSLASH) as [->|Hc].
      + rewrite model_dots_rfc by eauto. cbn [omap]. rewrite R5, <- ES, <- EA. intro E; injection E as <-. destruct T; reflexivity.
      + rewrite model_dots_rfc by (right; apply merge_absolute; [auto|right; eauto]).
        cbn [omap]. rewrite R5, <- ES, <- EA. intro E; injection E as <-. destruct T; reflexivity. }
  (* merging with the directory of the base *)
  assert (YB : exists mid z, y :: brest = mid ++ [z] /\ length mid = length brest).
  { destruct (exists_last (l := y :: brest) ltac:(discriminate)) as (mid & z & E). exists mid, z. split; auto.
    apply (f_equal (@length str)) in E. rewrite app_length in E. simpl in E. lia. }
  destruct YB as (mid & z & EYB & LM).
  assert (QM : Forall plain (pre ++ mid) /\ plain z).
  { rewrite EYB, app_assoc in QB. apply Forall_app in QB as [Q1 Q2]. inversion Q2; auto. }
  destruct QM as [QM Qz].
  assert (MERGE : forall segs, segs <> [] -> rfc_merge (authority B) (path B) (join [cSLASH] segs)
                   = cSLASH :: join [cSLASH] (pre ++ mid ++ segs)).
  { intros segs Hs. unfold rfc_merge. rewrite PB.
    assert (G : fst (rbreak1 47 (cSLASH :: join [cSLASH] (pre ++ y :: brest))) ++ join [cSLASH] segs
             = cSLASH :: join [cSLASH] (pre ++ mid ++ segs)).
    { rewrite EYB, app_assoc. rewrite rbreak_dir by (destruct Qz as (_ & _ & Qz); exact Qz).
      cbn [app]. rewrite flat_join by assumption. now rewrite <- app_assoc. }
    destruct (authority B); exact G. }
  rewrite REL. split.
  - intros [->|Hb].
    + destruct (Nat.eqb (length pre) 0), (Nat.eqb (length brest) 0); try (eexists; reflexivity).
      unfold rest. destruct x; [destruct trest|]; eexists; reflexivity.
    + rewrite Hb. cbn [length Nat.eqb]. destruct (Nat.eqb (length pre) 0); [eexists; reflexivity|].
      unfold rest. destruct x; [destruct trest|]; eexists; reflexivity.
  - (* when the reference is [join rest] *)
    assert (CASE1 : brest = [] -> x <> [] -> absolutize (out (join [cSLASH] rest)) (recompose B) None = Ok (recompose T)).
    { intros Hb Hx. apply STEP.
      - apply AVJ. auto.
      - unfold rest. destruct x; [congruence|]. rewrite join_hd. discriminate.
      - intros p. unfold rest. destruct x as [|c x']; [congruence|]. rewrite join_hd. intro E; injection E as -> _.
        inversion PLR as [|? ? (_ & _ & Hs) _]. apply Hs. now left.
      - intros a b E. right; right. eapply noscheme_path; [|exact E]. auto.
      - assert (S0 : starts_slash (join [cSLASH] rest) = false).
        { unfold rest. destruct x as [|c x']; [congruence|]. rewrite join_hd. cbn [starts_slash].
          apply N.eqb_neq. intros ->. inversion PLR as [|? ? (_ & _ & Hs) _]. apply Hs. now left. }
        rewrite S0, MERGE by assumption. rewrite Hb in LM. destruct mid; [|discriminate]. cbn [app].
        rewrite PT. apply remove_dots_id; [destruct pre; discriminate|exact QT]. }
    intros r. destruct (Nat.eqb_spec (length pre) 0) as [Hp|Hp].
    + destruct pre; [|discriminate]. cbn [app] in *.
      destruct (Nat.eqb_spec (length brest) 0) as [Hb|Hb].
      * destruct brest; [|discriminate]. intro E; injection E as <-. apply CASE1; auto.
        intros ->. destruct trest; [now apply Hend|]. apply Hmid; auto. discriminate.
      * destruct sub; [discriminate|]. intro E; injection E as <-. apply STEP.
        -- intros z0 Hz [E|E]; [subst; simpl in Hz; intuition discriminate|]. refine (AVJ rest _ z0 Hz E). auto.
        -- discriminate.
        -- intros p E0. assert (E : join [cSLASH] rest = 47 :: p) by exact (f_equal (@tl N) E0). unfold rest in E. destruct x as [|c x'].
           ++ destruct trest as [|t0 trest]; [discriminate|]. apply Hmid; auto. discriminate.
           ++ rewrite join_hd in E. injection E as -> _. inversion PLR as [|? ? (_ & _ & Hs) _]. apply Hs. now left.
        -- intros a b E. destruct a as [|a0 a]; [discriminate|]. injection E as <- _. right; right; now left.
        -- rewrite PT. transitivity (remove_dot_segments (cSLASH :: join [cSLASH] rest)); [reflexivity|]. now apply remove_dots_id.
    + destruct (Nat.eqb_spec (length brest) 0) as [Hb|Hb].
      * destruct brest; [|discriminate].
        destruct x as [|c x'].
        2:{ intro E. injection E as <-. apply CASE1; auto. discriminate. }
        destruct trest as [|t0 trest]; [exfalso; now apply Hend|].
        intro E. assert (Er : r = out ([cDOT; cSLASH] ++ join [cSLASH] rest)) by (unfold rest in *; congruence). subst r. clear E.
        assert (EJ : [cDOT; cSLASH] ++ join [cSLASH] rest = join [cSLASH] (seg_dot :: rest)).
        { unfold rest. rewrite join_cons2. reflexivity. }
        rewrite EJ. apply STEP.
        -- apply AVJ. intros w [<-|Hw]; auto.
        -- unfold rest. rewrite join_cons2. discriminate.
        -- intros p. unfold rest. rewrite join_cons2. discriminate.
        -- intros a b E. right; right. eapply noscheme_path; [|exact E]. simpl. intuition discriminate.
        -- assert (S0 : starts_slash (join [cSLASH] (seg_dot :: rest)) = false) by (unfold rest; rewrite join_cons2; reflexivity).
           rewrite S0, MERGE by discriminate. destruct mid; [|discriminate]. cbn [app]. rewrite PT. apply skip_dot; auto.
      * destruct sub; [discriminate|]. intro E.
        assert (Er : r = out (repeat_str [cDOT; cDOT; cSLASH] (length brest) ++ join [cSLASH] rest)) by congruence.
        subst r. clear E. rewrite repeat_str_join by assumption.
        assert (LB0 : exists k, length brest = S k) by (destruct brest; [exfalso; apply Hb; reflexivity|eexists; reflexivity]).
        destruct LB0 as [k LB0].
        assert (HD : exists l, repeat seg_dotdot (length brest) ++ rest = seg_dotdot :: l /\ l <> []).
        { rewrite LB0. cbn [repeat]. eexists; split; [reflexivity|]. intro E. apply app_eq_nil in E as [_ E]. auto. }
        destruct HD as (l & HD & Hl).
        assert (HDJ : join [cSLASH] (repeat seg_dotdot (length brest) ++ rest) = 46 :: 46 :: 47 :: join [cSLASH] l).
        { rewrite HD, join_cons_ne by assumption. reflexivity. }
        apply STEP.
        -- apply AVJ. intros w Hw. apply in_app_or in Hw as [Hw|Hw]; auto. apply repeat_spec in Hw. auto.
        -- rewrite HDJ. discriminate.
        -- intros p. rewrite HDJ. discriminate.
        -- intros a b E. right; right. rewrite HD in E. eapply noscheme_path; [|exact E]. simpl. intuition discriminate.
        -- rewrite HDJ at 1. change (starts_slash (46 :: ?z)) with false. cbv iota. rewrite MERGE.
           2:{ rewrite HD. discriminate. }
           rewrite <- LM, PT. apply up_and_down; auto.
Qed.
