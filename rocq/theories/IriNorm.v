(** * Case normalisation is idempotent; public identifiers; file paths *)
From Coq Require Import NArith ZArith String List Bool Lia Arith.
From Verif Require Import PyStr PyErr Regex Utf8 IriModel IriSpec IriSplit IriDots IriPct IriAbs IriMisc.
Import ListNotations.
Open Scope N_scope.

(** ** normalize_case *)

Definition auth_text (ui : option str) (h : str) (p : option str) : str :=
  (match ui with Some u => u ++ [cAT] | None => [] end) ++ h ++ (match p with Some q => cCOLON :: q | None => [] end).
Definition auth_ok (ui : option str) (h : str) (p : option str) : Prop :=
  (forall u, ui = Some u -> ~ In cAT u) /\ (ui = None -> ~ In cAT (auth_text ui h p)) /\ ~ In cCOLON h.

Lemma first_sep : forall (x : N) a b a' b', ~ In x a -> ~ In x a' -> a ++ x :: b = a' ++ x :: b' -> a = a' /\ b = b'.
Proof.
  intros x a. induction a as [|y a IH]; intros b a' b' Ha Ha' E; destruct a' as [|y' a']; simpl in E.
  - injection E; auto.
  - injection E as <- _. exfalso; apply Ha'; now left.
  - injection E as -> _. exfalso; apply Ha; now left.
  - injection E as <- E. apply IH in E; [destruct E; subst; auto| |]; intro; [apply Ha|apply Ha']; now right.
Qed.

Lemma port_unique : forall h p h' p', ~ In cCOLON h -> ~ In cCOLON h' ->
  h ++ (match p with Some q => cCOLON :: q | None => [] end) = h' ++ (match p' with Some q => cCOLON :: q | None => [] end) ->
  h = h' /\ p = p'.
Proof.
  intros h p h' p' H H' E. destruct p as [q|], p' as [q'|].
  - apply first_sep in E; auto. destruct E; subst; auto.
  - rewrite app_nil_r in E. subst h'. exfalso; apply H'. apply in_or_app; right; now left.
  - rewrite app_nil_r in E. subst h. exfalso; apply H. apply in_or_app; right; now left.
  - rewrite !app_nil_r in E. auto.
Qed.

Lemma auth_unique : forall ui h p ui' h' p', auth_ok ui h p -> auth_ok ui' h' p' ->
  auth_text ui h p = auth_text ui' h' p' -> ui = ui' /\ h = h' /\ p = p'.
Proof.
  intros ui h p ui' h' p' (H1 & H2 & H3) (H1' & H2' & H3') E. unfold auth_text in *.
  destruct ui as [u|], ui' as [u'|].
  - rewrite <- !app_assoc in E. cbn [app] in E. apply first_sep in E; auto. destruct E as [-> E].
    apply port_unique in E; [destruct E; subst; auto|auto|auto].
  - exfalso. apply (H2' eq_refl). rewrite <- E. apply in_or_app; left. apply in_or_app; right; now left.
  - exfalso. apply (H2 eq_refl). rewrite E. apply in_or_app; left. apply in_or_app; right; now left.
  - cbn [app] in E. apply port_unique in E; [destruct E; subst; auto|auto|auto].
Qed.

Lemma split_auth_ok : forall a, ~ In cLF a -> exists ui h p, split_authority a = (ui, h, p) /\ a = auth_text ui h p /\ auth_ok ui h p.
Proof.
  intros a H. destruct (split_authority_spec a H) as (ui & h & p & E & T & C1 & C2 & C3).
  exists ui, h, p. split; [auto|]. split; [exact T|]. split; [auto|]. split; [|auto].
  intro Hu. unfold auth_text. rewrite <- T. auto.
Qed.
Lemma split_auth_text : forall ui h p, ~ In cLF (auth_text ui h p) -> auth_ok ui h p ->
  split_authority (auth_text ui h p) = (ui, h, p).
Proof.
  intros ui h p H K. destruct (split_auth_ok _ H) as (ui' & h' & p' & E & T & K').
  rewrite E. apply auth_unique in T; auto. destruct T as (-> & -> & ->). reflexivity.
Qed.

Lemma ue_app_delim : forall x, x <> cPCT -> lower_hex x = false -> forall u r,
  upper_escapes (u ++ x :: r) = upper_escapes u ++ x :: upper_escapes r.
Proof.
  intros x Hx Hh u r. induction u as [u IH] using len_ind. destruct u as [|c u]; [apply ue_cons; auto|].
  cbn [app]. destruct (N.eq_dec c cPCT) as [->|Hc].
  2:{ rewrite !ue_cons by assumption. cbn [app]. f_equal. apply IH. simpl; lia. }
  destruct u as [|a [|b u]].
  - cbn [app]. destruct r as [|y r]; [reflexivity|]. rewrite ue_pct, Hh. cbn [andb].
    rewrite ue_cons by assumption. reflexivity.
  - cbn [app]. rewrite ue_pct, Hh, andb_false_r.
    change (a :: x :: r) with ([a] ++ x :: r). rewrite IH by (simpl; lia). reflexivity.
  - cbn [app]. rewrite !ue_pct. destruct (lower_hex a && lower_hex b).
    + cbn [app]. do 3 f_equal. apply IH. simpl; lia.
    + cbn [app]. f_equal. change (a :: b :: u ++ x :: r) with ((a :: b :: u) ++ x :: r). rewrite IH by (simpl; lia). reflexivity.
Qed.

(** The authority part of normalize_case. *)
Definition nauth (doHost : bool) (a0 : str) : str :=
  match a0 with
  | c :: a =>
    if doHost then
      let '(ui, host, port) := split_authority (c :: a) in
      (match ui with Some u => u ++ [cAT] | None => [] end)
            ++ lower host ++ (match port with Some q => cCOLON :: q | None => [] end)
    else a0
  | [] => a0
  end.

Lemma ncp_eq : forall d p, normalize_case_parts d p =
  mkparts (option_map (fun s => lower (upper_escapes s)) (u_scheme p))
          (option_map (fun a => nauth d (upper_escapes a)) (u_auth p)) (upper_escapes (u_path p))
          (option_map upper_escapes (u_query p)) (option_map upper_escapes (u_frag p)).
Proof.
  intros d [s a pa q f]. unfold normalize_case_parts, nauth. cbn [u_scheme u_auth u_path u_query u_frag]. f_equal.
  destruct a as [a|]; [|reflexivity]. cbn [option_map]. destruct (upper_escapes a) as [|c a']; [reflexivity|].
  destruct d; [|reflexivity]. destruct (split_authority (c :: a')) as [[ui h] po]. reflexivity.
Qed.

Lemma nauth_casevar : forall d a, ~ In cLF a -> casevar a (nauth d a).
Proof.
  intros d a H. unfold nauth. destruct a as [|c a]; [constructor|]. destruct d; [|apply casevar_refl].
  destruct (split_auth_ok _ H) as (ui & h & p & E & T & _). rewrite E, T at 1. unfold auth_text.
  apply Forall2_app; [apply casevar_refl|]. apply Forall2_app; [apply casevar_lower|apply casevar_refl].
Qed.

Lemma ue_auth_text : forall ui h p, upper_escapes (auth_text ui h p) =
  auth_text (option_map upper_escapes ui) (upper_escapes h) (option_map upper_escapes p).
Proof.
  intros ui h p. unfold auth_text.
  assert (T : upper_escapes (h ++ match p with Some q => cCOLON :: q | None => [] end)
            = upper_escapes h ++ match option_map upper_escapes p with Some q => cCOLON :: q | None => [] end).
  { destruct p as [q|]; cbn [option_map].
    - apply ue_app_delim; [discriminate|reflexivity].
    - now rewrite !app_nil_r. }
  destruct ui as [u|]; cbn [option_map app].
  - rewrite <- !app_assoc. cbn [app]. rewrite ue_app_delim by (discriminate || reflexivity). now rewrite T.
  - exact T.
Qed.

Lemma not_in_cv : forall x s t, is_alpha x = false -> casevar s t -> ~ In x s -> ~ In x t.
Proof. intros x s t H C N I. apply N. apply (casevar_In s t x C); auto using caseless_intro. Qed.

Lemma auth_ok_cv : forall ui h p ui' h' p', auth_ok ui h p ->
  ocasevar ui ui' -> casevar h h' -> ocasevar p p' -> auth_ok ui' h' p'.
Proof.
  intros ui h p ui' h' p' (H1 & H2 & H3) Cu Ch Cp. split; [|split].
  - intros u ->. destruct ui as [u0|]; [|destruct Cu]. eapply not_in_cv; eauto.
  - intros ->. destruct ui as [u0|]; [destruct Cu|]. eapply not_in_cv; [reflexivity| |apply H2; auto].
    unfold auth_text. apply Forall2_app; [constructor|]. apply Forall2_app; [exact Ch|].
    destruct p, p'; simpl in Cp; try tauto; constructor; auto.
  - eapply not_in_cv; eauto.
Qed.

Lemma ue_auth_idem : forall d a, ~ In cLF a ->
  nauth d (upper_escapes (nauth d (upper_escapes a))) = nauth d (upper_escapes a).
Proof.
  intros d a HL. destruct d.
  2:{ unfold nauth. destruct (upper_escapes a) as [|c b] eqn:E; [reflexivity|].
      rewrite <- E, ue_idem, E. reflexivity. }
  assert (HL' : ~ In cLF (upper_escapes a)) by (eapply not_in_cv; [reflexivity|apply ue_casevar|auto]).
  assert (F : forall b, ~ In cLF b -> exists ui h p, b = auth_text ui h p /\ auth_ok ui h p /\ nauth true b = auth_text ui (lower h) p).
  { intros b Hb. destruct (split_auth_ok b Hb) as (ui & h & p & E & T & K).
    exists ui, h, p. split; [auto|]. split; [auto|]. unfold nauth. destruct b as [|c b].
    - change (split_authority []) with ((@None str, @nil N, @None str)) in E. injection E as <- <- <-. reflexivity.
    - rewrite E. reflexivity. }
  destruct (F _ HL') as (ui & h & p & T & K & E). rewrite E.
  set (b := upper_escapes (auth_text ui (lower h) p)).
  assert (Hb : ~ In cLF b).
  { unfold b. eapply not_in_cv; [reflexivity|apply ue_casevar|]. rewrite <- E.
    eapply not_in_cv; [reflexivity|apply nauth_casevar; auto|auto]. }
  destruct (F _ Hb) as (ui2 & h2 & p2 & T2 & K2 & E2). rewrite E2.
  unfold b in T2. rewrite ue_auth_text in T2.
  assert (CU : forall o, ocasevar o (option_map upper_escapes o)).
  { intros [o|]; simpl; auto. apply ue_casevar. }
  apply auth_unique in T2; auto.
  2:{ eapply auth_ok_cv; [exact K|apply CU| |apply CU].
      eapply casevar_trans; [apply casevar_lower|apply ue_casevar]. }
  destruct T2 as (<- & <- & <-).
  (* userinfo and port were already upper-cased *)
  assert (U : option_map upper_escapes ui = ui /\ option_map upper_escapes p = p).
  { pose proof (ue_idem a) as I. rewrite T, ue_auth_text in I.
    apply auth_unique in I; [tauto| |auto].
    eapply auth_ok_cv; [exact K|apply CU|apply ue_casevar|apply CU]. }
  destruct U as [-> ->]. rewrite lower_ue, lower_idem. reflexivity.
Qed.

Lemma normalize_case_idem_lemma : forall d u, ~ In cLF u ->
  exists v, normalize_case d u = Ok v /\ normalize_case d v = Ok v /\ lower v = lower u.
Proof.
  intros d u HL. destruct (split_total u HL) as (c & Lc & Rc & Ec).
  unfold normalize_case at 1. rewrite Ec. cbn [bind]. eexists; split; [reflexivity|].
  rewrite ncp_eq. destruct c as [s a p q f]. cbn [to_parts u_scheme u_auth u_path u_query u_frag scheme authority path query fragment].
  set (c' := Comp (option_map (fun s => lower (upper_escapes s)) s) (option_map (fun a => nauth d (upper_escapes a)) a)
                  (upper_escapes p) (option_map upper_escapes q) (option_map upper_escapes f)).
  assert (Ha : forall x, a = Some x -> ~ In cLF x).
  { intros x -> Hin. apply HL. rewrite <- Rc. unfold recompose; simpl. apply in_or_app; right. right; right.
    apply in_or_app; left. auto. }
  assert (Hf : forall x, f = Some x -> ~ In cLF x).
  { intros x -> Hin. apply HL. rewrite <- Rc. unfold recompose; simpl. apply in_or_app; right. apply in_or_app; right.
    apply in_or_app; right. apply in_or_app; right. now right. }
  assert (Cs : ocasevar s (scheme c')).
  { destruct s; simpl; auto. eapply casevar_trans; [apply ue_casevar|apply casevar_lower]. }
  assert (Ca : ocasevar a (authority c')).
  { destruct a as [a|]; simpl; auto. eapply casevar_trans; [apply ue_casevar|apply nauth_casevar].
    eapply not_in_cv; [reflexivity|apply ue_casevar|auto]. }
  assert (Cq : ocasevar q (query c')) by (destruct q; simpl; auto using ue_casevar).
  assert (Cf : ocasevar f (fragment c')) by (destruct f; simpl; auto using ue_casevar).
  assert (L' : legal c').
  { apply (legal_casevar _ c' Lc); auto. apply ue_casevar. }
  change (mkparts (option_map (fun s => lower (upper_escapes s)) s) (option_map (fun a => nauth d (upper_escapes a)) a)
                  (upper_escapes p) (option_map upper_escapes q) (option_map upper_escapes f)) with (to_parts c').
  rewrite unsplit_recompose'. split.
  - unfold normalize_case. rewrite split_legal; auto.
    2:{ intros g Hg. destruct f as [f|]; [|discriminate]. injection Hg as <-.
        eapply not_in_cv; [reflexivity|apply ue_casevar|auto]. }
    cbn [bind]. f_equal. rewrite ncp_eq. unfold c'. cbn [to_parts u_scheme u_auth u_path u_query u_frag scheme authority path query fragment].
    change (recompose (Comp ?a ?b ?c ?d ?e)) with (unsplit_uri_ref (mkparts a b c d e)).
    rewrite ue_idem. f_equal. f_equal.
    + destruct s; simpl; auto. now rewrite lower_ue, lower_idem.
    + destruct a; simpl; auto. rewrite ue_auth_idem; auto.
    + destruct q; simpl; auto. now rewrite ue_idem.
    + destruct f; simpl; auto. now rewrite ue_idem.
  - symmetry. rewrite <- Rc. apply lower_casevar. unfold recompose.
    cbn [scheme authority path query fragment].
    repeat apply Forall2_app.
    + destruct s; simpl in *; [|constructor]. apply Forall2_app; auto. apply casevar_refl.
    + destruct a; simpl in *; [|constructor]. repeat constructor; auto.
    + apply ue_casevar.
    + destruct q; simpl in *; [|constructor]. repeat constructor; auto.
    + destruct f; simpl in *; [|constructor]. repeat constructor; auto.
Qed.

(** ** Public identifiers *)

(** [e] decodes to [w] in every context. *)
Definition decodes (e w : str) : Prop := forall s, pct_decode_raw None (e ++ s) = w ++ pct_decode_raw None s.
Lemma decodes_app : forall e w e' w', decodes e w -> decodes e' w' -> decodes (e ++ e') (w ++ w').
Proof. intros e w e' w' H H' s. rewrite <- !app_assoc. rewrite H, H'. reflexivity. Qed.
Lemma decodes_nil : decodes [] [].
Proof. intro s. reflexivity. Qed.
Lemma decodes_char : forall c, c <> cPCT -> decodes [c] [c].
Proof. intros c H s. cbn [app]. now apply dec_char. Qed.
Lemma decodes_chars : forall l, ~ In cPCT l -> decodes l l.
Proof.
  induction l as [|c l IH]; intro H; [apply decodes_nil|].
  apply (decodes_app [c] [c] l l); [apply decodes_char|apply IH]; intro; apply H; [now left|now right].
Qed.
Lemma decodes_all : forall e w, decodes e w -> pct_decode_raw None e = w.
Proof. intros e w H. specialize (H []). rewrite dec_nil, !app_nil_r in H. exact H. Qed.
Lemma decodes_join : forall sep f l, ~ In cPCT sep -> (forall w, In w l -> decodes (f w) w) ->
  decodes (join sep (map f l)) (join sep l).
Proof.
  intros sep f l Hs. induction l as [|w l IH]; intro H; [apply decodes_nil|].
  destruct l as [|w' l]; [apply H; now left|].
  cbn [map]. rewrite !join_cons2. apply decodes_app; [apply H; now left|].
  apply decodes_app; [now apply decodes_chars|]. apply IH. intros v Hv. apply H. now right.
Qed.
Lemma decodes_flat : forall f l, (forall c, In c l -> decodes (f c) [c]) -> decodes (flat_map f l) l.
Proof.
  intros f l. induction l as [|c l IH]; intro H; [apply decodes_nil|].
  apply (decodes_app (f c) [c] (flat_map f l) l); [apply H; now left|apply IH]. intros; apply H; now right.
Qed.

Lemma decodes_enc : forall c, c < 256 -> decodes (fst (enc1 false true false RESERVED c false)) [c].
Proof. intros c H s. rewrite dec_enc1; auto. discriminate. Qed.

Lemma flat_map_join : forall (f : N -> str) sep l, flat_map f (join sep l) = join (flat_map f sep) (map (flat_map f) l).
Proof.
  intros f sep l. induction l as [|w l IH]; [reflexivity|]. destruct l as [|w' l]; [reflexivity|].
  cbn [map]. rewrite !join_cons2. rewrite !flat_map_app. f_equal. f_equal. exact IH.
Qed.

Lemma split2_eq : forall a b x y s, split2 a b (x :: y :: s) =
  if N.eqb x a && N.eqb y b then [] :: split2 a b s
  else match split2 a b (y :: s) with [] => [[x]] | w :: ws => (x :: w) :: ws end.
Proof. reflexivity. Qed.
Lemma split2_nonempty : forall a b s, split2 a b s <> [].
Proof.
  intros a b s. destruct s as [|x [|y s]]; try discriminate. rewrite split2_eq.
  destruct (N.eqb x a && N.eqb y b); [discriminate|]. destruct (split2 a b (y :: s)); discriminate.
Qed.
Lemma join_split2 : forall a b s, join [a; b] (split2 a b s) = s.
Proof.
  intros a b s. induction s as [s IH] using len_ind. destruct s as [|x [|y s]]; [reflexivity|reflexivity|].
  rewrite split2_eq. destruct (N.eqb x a && N.eqb y b) eqn:E.
  - apply andb_true_iff in E as [E1 E2]. apply N.eqb_eq in E1, E2. subst.
    rewrite join_cons_ne by apply split2_nonempty. cbn [app]. do 2 f_equal. apply IH. simpl; lia.
  - specialize (IH (y :: s) ltac:(simpl; lia)). pose proof (split2_nonempty a b (y :: s)).
    destruct (split2 a b (y :: s)) as [|w ws]; [congruence|]. rewrite join_hd. now rewrite IH.
Qed.

(** Undoing the three substitutions of urn_to_public_id. *)
Definition rep3 (s : str) : str := replace1 cSEMI [cCOLON; cCOLON] (replace1 cCOLON [cSLASH; cSLASH] (replace1 cPLUS [32] s)).
Definition rep3_1 (c : N) : str :=
  if c =? cPLUS then [32] else if c =? cCOLON then [cSLASH; cSLASH] else if c =? cSEMI then [cCOLON; cCOLON] else [c].
Lemma rep3_flat : forall s, rep3 s = flat_map rep3_1 s.
Proof.
  intro s. unfold rep3, replace1. induction s as [|c s IH]; [reflexivity|].
  cbn [flat_map]. rewrite !flat_map_app, IH. f_equal. unfold rep3_1.
  destruct (N.eqb_spec c cPLUS); [reflexivity|]. cbn [flat_map app].
  destruct (N.eqb_spec c cCOLON); [reflexivity|]. cbn [flat_map app].
  destruct (N.eqb_spec c cSEMI); reflexivity.
Qed.
Lemma rep3_id : forall s, ~ In cPLUS s -> ~ In cCOLON s -> ~ In cSEMI s -> flat_map rep3_1 s = s.
Proof.
  induction s as [|c s IH]; intros H1 H2 H3; [reflexivity|]. cbn [flat_map]. rewrite IH by (intro; simpl in *; tauto).
  unfold rep3_1. destruct (N.eqb_spec c cPLUS); [subst; exfalso; apply H1; now left|].
  destruct (N.eqb_spec c cCOLON); [subst; exfalso; apply H2; now left|].
  destruct (N.eqb_spec c cSEMI); [subst; exfalso; apply H3; now left|]. reflexivity.
Qed.

Lemma pct2_chars : forall n x, n < 256 -> In x (pct2 n) -> x = 37 \/ (48 <= x /\ x <= 57) \/ (65 <= x /\ x <= 70).
Proof.
  intros n x H Hx. unfold pct2 in Hx. pose proof (div16_lt n H). pose proof (mod16_lt n).
  remember (n / 16) as q. remember (n mod 16) as m. clear Heqq Heqm.
  unfold hexdigit in Hx. cbn [In] in Hx.
  destruct (N.ltb_spec q 10), (N.ltb_spec m 10); destruct Hx as [<-|[<-|[<-|[]]]]; lia.
Qed.

(** What an encoded byte looks like. *)
Lemma enc1_byte : forall stp c, c < 256 ->
  let e := fst (enc1 false true stp RESERVED c false) in
  (e = [c] /\ unreserved c = true) \/ (e = [cPLUS] /\ c = 32 /\ stp = true) \/ e = pct2 c.
Proof.
  intros stp c H. unfold enc1. cbv zeta. destruct (unreserved c) eqn:E; [left; auto|].
  destruct (c <? 128); [|auto]. destruct (stp && (c =? 32)) eqn:E2.
  - apply andb_true_iff in E2 as [-> E2]. apply N.eqb_eq in E2. auto.
  - destruct (mem c RESERVED); auto.
Qed.

Lemma unreserved_not : forall x, In x (lit "+:;/?#%@ ") -> unreserved x = false.
Proof. intros x H. apply (proj1 (forallb_forall (fun x => negb (unreserved x)) (lit "+:;/?#%@ ")) eq_refl) in H. now apply negb_true_iff in H. Qed.

Lemma enc_plus_rep : forall c, c < 256 -> decodes (flat_map rep3_1 (fst (enc1 false true true RESERVED c false))) [c].
Proof.
  intros c H. destruct (enc1_byte true c H) as [[-> U]|[(-> & -> & _)| ->]].
  - rewrite rep3_id.
    + apply decodes_char. intros ->. now rewrite unreserved_not in U by (simpl; auto 20).
    + intros [->|[]]. now rewrite unreserved_not in U by (simpl; auto 20).
    + intros [->|[]]. now rewrite unreserved_not in U by (simpl; auto 20).
    + intros [->|[]]. now rewrite unreserved_not in U by (simpl; auto 20).
  - cbn. apply decodes_char. discriminate.
  - rewrite rep3_id.
    + intro s. apply dec_pct2. exact H.
    + intro Hx. apply pct2_chars in Hx; auto. lia.
    + intro Hx. apply pct2_chars in Hx; auto. lia.
    + intro Hx. apply pct2_chars in Hx; auto. lia.
Qed.

Lemma enc_plus_no : forall s x, Forall (fun c => c < 256) s -> In x (lit "?#:/;@ ") -> ~ In x (enc_plus s).
Proof.
  intros s x Hs Hx Hin. unfold enc_plus in Hin. apply in_flat_map in Hin as (c & Hc & Hin).
  rewrite Forall_forall in Hs. specialize (Hs c Hc).
  destruct (enc1_byte true c Hs) as [[E U]|[(E & _ & _)|E]]; rewrite E in Hin.
  - destruct Hin as [->|[]]. rewrite unreserved_not in U; [discriminate|]. simpl in *. intuition auto 20.
  - destruct Hin as [<-|[]]. simpl in Hx. intuition discriminate.
  - apply pct2_chars in Hin; auto. simpl in Hx. intuition (subst; lia).
Qed.

Lemma split2_In : forall a b s w x, In w (split2 a b s) -> In x w -> In x s.
Proof.
  intros a b s w x Hw Hx. rewrite <- (join_split2 a b s). revert Hw. generalize (split2 a b s). intro l.
  induction l as [|v l IH]; intro Hw; [destruct Hw|]. destruct l as [|v' l].
  - destruct Hw as [->|[]]; auto.
  - rewrite join_cons2. destruct Hw as [->|Hw]; [apply in_or_app; now left|]. apply in_or_app; right. right; right. auto.
Qed.

Lemma In_join : forall sep l x, In x (join sep l) -> In x sep \/ exists w, In w l /\ In x w.
Proof.
  intros sep l x. induction l as [|w l IH]; [intros []|]. destruct l as [|w' l].
  - intro H. right. exists w. split; [now left|auto].
  - rewrite join_cons2. intro H. apply in_app_or in H as [H|H]; [right; exists w; split; [now left|auto]|].
    apply in_app_or in H as [H|H]; [auto|]. destruct (IH H) as [?|(v & Hv & ?)]; [auto|]. right. exists v. split; [now right|auto].
Qed.

Definition urn_body (p : str) : str :=
  join [cCOLON] (map (fun ds => join [cSEMI] (map enc_plus (split2 cCOLON cCOLON ds))) (split2 cSLASH cSLASH p)).

Lemma urn_body_decodes : forall p, Forall (fun c => c < 256) p -> pct_decode_raw None (rep3 (urn_body p)) = p.
Proof.
  intros p H. apply decodes_all. rewrite rep3_flat. unfold urn_body. rewrite flat_map_join, map_map.
  change (flat_map rep3_1 [cCOLON]) with [cSLASH; cSLASH].
  rewrite <- (join_split2 cSLASH cSLASH p) at 2. apply decodes_join; [simpl; intuition discriminate|].
  intros ds Hds. rewrite flat_map_join, map_map. change (flat_map rep3_1 [cSEMI]) with [cCOLON; cCOLON].
  rewrite <- (join_split2 cCOLON cCOLON ds) at 2. apply decodes_join; [simpl; intuition discriminate|].
  intros w Hw. unfold enc_plus.
  assert (Hb : Forall (fun c => c < 256) w).
  { apply Forall_forall. intros x Hx. rewrite Forall_forall in H. apply H. eapply split2_In; [exact Hds|]. eapply split2_In; eauto. }
  clear - Hb. induction w as [|c w IH]; [apply decodes_nil|]. inversion Hb; subst. cbn [flat_map]. rewrite flat_map_app.
  apply (decodes_app _ [c] _ w); [now apply enc_plus_rep|auto].
Qed.

Lemma urn_body_avoids : forall p, Forall (fun c => c < 256) p -> avoids (urn_body p) (lit "?#/").
Proof.
  intros p H x Hx Hin. unfold urn_body in Hin. apply In_join in Hin as [Hin|(w & Hw & Hin)].
  - destruct Hin as [<-|[]]. simpl in Hx. intuition discriminate.
  - apply in_map_iff in Hw as (ds & <- & Hds). apply In_join in Hin as [Hin|(w & Hw & Hin)].
    + destruct Hin as [<-|[]]. simpl in Hx. intuition discriminate.
    + apply in_map_iff in Hw as (v & <- & Hv). revert Hin. apply enc_plus_no.
      * apply Forall_forall. intros y Hy. rewrite Forall_forall in H. apply H. eapply split2_In; [exact Hds|]. eapply split2_In; eauto.
      * simpl in *. intuition auto 20.
Qed.

Lemma urn_roundtrip : forall p, Forall (fun c => c < 256) p ->
  urn_to_public_id (public_id_to_urn p) = Ok (condense (strip p)).
Proof.
  intros p0 H0. set (p := condense (strip p0)).
  assert (H : Forall (fun c => c < 256) p).
  { unfold p. 
    assert (L : forall s, Forall (fun c => c < 256) s -> Forall (fun c => c < 256) (lstrip s)).
    { induction s as [|c s IH]; intro Hs; [constructor|]. inversion Hs; subst. simpl. destruct (is_pyspace c); auto. }
    assert (C : forall s, Forall (fun c => c < 256) s -> Forall (fun c => c < 256) (condense s)).
    { induction s as [|c s IH]; intro Hs; [constructor|]. inversion Hs; subst. cbn [condense].
      destruct (is_xmlspace c); [|constructor; auto]. destruct s as [|d s']; [repeat constructor|].
      destruct (is_xmlspace d); [auto|constructor; [reflexivity|auto]]. }
    apply C. unfold strip. apply Forall_rev. apply L. apply Forall_rev. auto. }
  assert (E : split_uri_ref (public_id_to_urn p0) = Ok (mkparts (Some (lit "urn")) None (lit "publicid:" ++ urn_body p) None None)).
  { set (c := Comp (Some (lit "urn")) None (lit "publicid:" ++ urn_body p) None None).
    assert (R : recompose c = public_id_to_urn p0).
    { unfold recompose, c, public_id_to_urn. cbn [scheme authority path query fragment].
      fold p. change (join [cCOLON] (map (fun ds => join [cSEMI] (map enc_plus (split2 cCOLON cCOLON ds))) (split2 cSLASH cSLASH p))) with (urn_body p).
      cbn. now rewrite app_nil_r. }
    rewrite <- R. rewrite split_legal; [reflexivity| |discriminate].
    assert (A := urn_body_avoids p H).
    constructor; cbn [c scheme authority path query fragment].
    - intros s Es. injection Es as <-. split; [discriminate|]. intros x Hx. simpl in Hx |- *. intuition (subst; discriminate).
    - discriminate.
    - intros x Hx Hin. apply in_app_or in Hin as [Hin|Hin].
      + simpl in Hx, Hin. intuition (subst; discriminate).
      + apply (A x); [simpl in *; intuition auto 20|auto].
    - congruence.
    - intros _ q Hq. discriminate.
    - discriminate.
    - discriminate. }
  unfold urn_to_public_id. destruct (public_id_to_urn p0) eqn:EP; [discriminate|]. rewrite E. cbn [bind u_scheme u_path].
  change (str_eqb (lower (lit "urn")) (lit "urn")) with true. cbv iota.
  assert (B : break1 cCOLON (lit "publicid:" ++ urn_body p) = Some (lit "publicid", urn_body p)).
  { apply break1_Some. split; [reflexivity|]. simpl. intuition discriminate. }
  rewrite B. change (str_eqb (pct_decode_raw None (lit "publicid")) (lit "publicid")) with true. cbv iota.
  f_equal. apply urn_body_decodes. exact H.
Qed.

(** ** File paths *)

Lemma sub2f_cons : forall c s, c <> cPCT -> sub_2f (c :: s) = c :: sub_2f s.
Proof.
  intros c s H. destruct s as [|a [|b r]]; try reflexivity.
  cbn [sub_2f]. destruct (N.eqb_spec c cPCT); [congruence|]. reflexivity.
Qed.
Lemma sub2f_pct2 : forall n s, n < 256 -> n <> cSLASH -> sub_2f (pct2 n ++ s) = pct2 n ++ sub_2f s.
Proof.
  intros n s H Hn.
  assert (E : pct2 n = [cPCT; hexdigit (n / 16); hexdigit (n mod 16)]) by reflexivity.
  rewrite E. cbn [app].
  change (sub_2f (cPCT :: hexdigit (n / 16) :: hexdigit (n mod 16) :: s)) with
    (if N.eqb cPCT cPCT && N.eqb (hexdigit (n / 16)) 50 && (N.eqb (hexdigit (n mod 16)) 70 || N.eqb (hexdigit (n mod 16)) 102)
     then 92 :: cSLASH :: sub_2f s else cPCT :: sub_2f (hexdigit (n / 16) :: hexdigit (n mod 16) :: s)).
  rewrite !sub2f_cons by apply hexdigit_ne_pct.
  destruct (N.eqb_spec (hexdigit (n / 16)) 50) as [E1|]; [|rewrite andb_false_r; reflexivity].
  assert (E2 : (N.eqb (hexdigit (n mod 16)) 70 || N.eqb (hexdigit (n mod 16)) 102) = false).
  { pose proof (N.div_mod n 16 ltac:(lia)) as D. pose proof (div16_lt n H). pose proof (mod16_lt n).
    remember (n / 16) as q. remember (n mod 16) as m. clear Heqq Heqm. unfold hexdigit in *.
    apply orb_false_iff. rewrite !N.eqb_neq.
    destruct (N.ltb_spec q 10), (N.ltb_spec m 10); lia. }
  rewrite E2. cbn. reflexivity.
Qed.

Lemma sub2f_enc : forall l s, Forall (fun c => c < 256) l -> ~ In cSLASH l ->
  sub_2f (enc_bytes l ++ s) = enc_bytes l ++ sub_2f s.
Proof.
  intros l s. induction l as [|c l IH]; intros H Hn; [reflexivity|]. inversion H; subst.
  change (enc_bytes (c :: l)) with (fst (enc1 false true false RESERVED c false) ++ enc_bytes l).
  rewrite <- !app_assoc.
  assert (IH' : sub_2f (enc_bytes l ++ s) = enc_bytes l ++ sub_2f s) by (apply IH; auto; intro; apply Hn; now right).
  destruct (enc1_byte false c ltac:(assumption)) as [[-> U]|[(_ & _ & Hx)| ->]]; [|discriminate|].
  - cbn [app]. rewrite sub2f_cons by (now apply unreserved_ne_pct). now rewrite IH'.
  - rewrite sub2f_pct2; [now rewrite IH'|assumption|]. intros ->. apply Hn. now left.
Qed.

Definition enc_path (q : str) : str := join [cSLASH] (map enc_bytes (split1 cSLASH q)).

Lemma sub2f_join : forall l, (forall w, In w l -> Forall (fun c => c < 256) w /\ ~ In cSLASH w) ->
  sub_2f (join [cSLASH] (map enc_bytes l)) = join [cSLASH] (map enc_bytes l).
Proof.
  induction l as [|w l IH]; intro H; [reflexivity|]. destruct l as [|w' l].
  - cbn [map join]. rewrite <- (app_nil_r (enc_bytes w)) at 1. destruct (H w ltac:(now left)).
    rewrite sub2f_enc by assumption. apply app_nil_r.
  - cbn [map]. rewrite join_cons2. destruct (H w ltac:(now left)). rewrite sub2f_enc by assumption. f_equal.
    cbn [app]. rewrite sub2f_cons by discriminate. f_equal. apply IH. intros v Hv. apply H. now right.
Qed.

Lemma enc_path_facts : forall q, Forall (fun c => c < 256) q ->
  sub_2f (enc_path q) = enc_path q /\ pct_decode_raw None (enc_path q) = q /\ avoids (enc_path q) (lit "?#").
Proof.
  intros q H.
  assert (P : forall w, In w (split1 cSLASH q) -> Forall (fun c => c < 256) w /\ ~ In cSLASH w).
  { intros w Hw. split.
    - apply Forall_forall. intros x Hx. rewrite Forall_forall in H. apply H. eapply split1_In; eauto.
    - pose proof (split1_pieces cSLASH q) as F. rewrite Forall_forall in F. auto. }
  split; [|split].
  - apply sub2f_join; auto.
  - apply decodes_all. unfold enc_path. rewrite <- (join_split1 cSLASH q) at 2. apply decodes_join; [simpl; intuition discriminate|].
    intros w Hw. apply decodes_flat. intros c Hc. apply decodes_enc. destruct (P w Hw) as [F _]. rewrite Forall_forall in F. auto.
  - intros x Hx Hin. unfold enc_path in Hin. apply In_join in Hin as [Hin|(v & Hv & Hin)].
    + destruct Hin as [<-|[]]. simpl in Hx. intuition discriminate.
    + apply in_map_iff in Hv as (w & <- & Hw). unfold enc_bytes in Hin. apply in_flat_map in Hin as (c & Hc & Hin).
      destruct (P w Hw) as [F _]. rewrite Forall_forall in F. specialize (F c Hc).
      destruct (enc1_byte false c F) as [[E U]|[(_ & _ & Hy)|E]]; [|discriminate|]; rewrite E in Hin.
      * destruct Hin as [->|[]]. rewrite unreserved_not in U; [discriminate|]. simpl in *. intuition auto 20.
      * apply pct2_chars in Hin; auto. simpl in Hx. intuition (subst; lia).
Qed.

Lemma rfc_segs_in : forall segs keep w, In w (rfc_segs keep segs) -> In w keep \/ In w segs \/ w = [].
Proof.
  assert (TL : forall (k : list str) w, In w (tl k) -> In w k) by (intros [|? ?] w H; [auto|now right]).
  induction segs as [|s segs IH]; intros keep w H; [auto|].
  destruct segs as [|s2 segs].
  - simpl in H. destruct (str_eqb s seg_dotdot); [destruct H as [<-|H]; auto|].
    destruct (str_eqb s seg_dot); destruct H as [<-|H]; simpl; auto.
  - change (rfc_segs keep (s :: s2 :: segs)) with
          (if str_eqb s seg_dotdot then rfc_segs (tl keep) (s2 :: segs)
           else if str_eqb s seg_dot then rfc_segs keep (s2 :: segs) else rfc_segs (s :: keep) (s2 :: segs)) in H.
    destruct (str_eqb s seg_dotdot); [|destruct (str_eqb s seg_dot)]; apply IH in H; destruct H as [H|[H|H]];
      try (right; right; exact H); try (right; left; right; exact H).
    + left. now apply TL.
    + left. exact H.
    + destruct H as [<-|H]; [right; left; now left|left; exact H].
Qed.
Lemma buf_in : forall keep x, In x (buf keep) -> forall P : N -> Prop, P cSLASH -> (forall w y, In w keep -> In y w -> P y) -> P x.
Proof.
  induction keep as [|s keep IH]; intros x H P H0 HP; [destruct H|].
  rewrite buf_cons in H. apply in_app_or in H as [H|[<-|H]]; auto.
  - eapply IH; eauto. intros w y Hw. apply HP. now right.
  - eapply HP; [now left|auto].
Qed.

Lemma os_path_roundtrip : forall local cwd aa p, Forall (fun c => c < 256) p ->
  uri_to_os_path_posix local cwd aa (os_path_to_uri_posix local cwd aa (cSLASH :: p)) = Ok (remove_dot_segments (cSLASH :: p)).
Proof.
  intros local cwd aa p H.
  assert (EU : os_path_to_uri_posix local cwd aa (cSLASH :: p) = lit "file://" ++ enc_path (remove_dot_segments (cSLASH :: p))) by reflexivity.
  rewrite EU. clear EU.
  destruct (remove_dots_segments p) as (segs & Hne & Hpl & E).
  set (q := remove_dot_segments (cSLASH :: p)) in *.
  assert (Hq : Forall (fun c => c < 256) q).
  { apply Forall_forall. intros x Hx. rewrite Forall_forall in H. unfold q in Hx. rewrite model_abs in Hx.
    apply (buf_in _ _ Hx (fun c => c < 256)); [reflexivity|]. intros w y Hw Hy. destruct (rfc_segs_in _ _ _ Hw) as [[]|[Hin| ->]]; [|destruct Hy].
    apply H. eapply split1_In; eauto. }
  destruct (enc_path_facts q Hq) as (F1 & F2 & F3).
  assert (S : exists r, enc_path q = cSLASH :: r).
  { unfold enc_path. rewrite E. change (split1 cSLASH (cSLASH :: ?x)) with ([] :: split1 cSLASH x).
    cbn [map]. rewrite join_cons_ne; [eexists; reflexivity|].
    intro Hm. apply map_eq_nil in Hm. now apply split1_nonempty in Hm. }
  destruct S as [r S].
  assert (SP : split_uri_ref (lit "file://" ++ enc_path q) = Ok (mkparts (Some (lit "file")) (Some []) (enc_path q) None None)).
  { set (c := Comp (Some (lit "file")) (Some []) (enc_path q) None None).
    assert (R : recompose c = lit "file://" ++ enc_path q) by (unfold recompose; cbn; now rewrite app_nil_r).
    rewrite <- R. rewrite split_legal; [reflexivity| |discriminate].
    constructor; cbn [c scheme authority path query fragment].
    - intros s Es. injection Es as <-. split; [discriminate|]. intros x Hx. simpl in Hx |- *. intuition (subst; discriminate).
    - intros a Ea. injection Ea as <-. intros x Hx [].
    - exact F3.
    - right. exists r. exact S.
    - discriminate.
    - discriminate.
    - discriminate. }
  unfold uri_to_os_path_posix. rewrite SP. cbn [bind u_scheme u_auth u_path].
  change (negb (str_eqb (lit "file") (lit "file"))) with false. cbv iota.
  change (match lit "file" with [] => false | _ :: _ => false end) with false. cbv iota.
  change (str_eqb [] (lit "localhost")) with false. cbv iota zeta.
  rewrite F1, F2. f_equal. rewrite E. change (starts_slash (cSLASH :: join [cSLASH] segs)) with true.
  cbn [negb]. rewrite andb_false_r. reflexivity.
Qed.
