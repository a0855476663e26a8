(** * Proofs about the keys of uridict *)
From Coq Require Import NArith ZArith String List Bool Relations Lia.
From Verif Require Import PyStr PyErr IriSpec IriModel IriSplit IriAbs IriPct IriMisc IriNorm RsModel RsSpec.
Import ListNotations.
Open Scope N_scope.

Notation np := (pct_decode_raw (Some DECODABLE)).
Notation ue := upper_escapes.

(** ** Text *)
Lemma wf_app : forall x y, pct_wellformed x -> pct_wellformed y -> pct_wellformed (x ++ y).
Proof. intros x y H Hy. induction H; cbn [app]; [assumption|now apply pwf_char|now apply pwf_pct]. Qed.
Lemma wf_esc : forall a b, any_hex a -> any_hex b -> pct_wellformed [37; a; b].
Proof. intros a b A B. apply pwf_pct; auto. apply pwf_nil. Qed.
Lemma hexd_any : forall a m, hex_digit a m -> any_hex a /\ hexval a = Some m /\ m < 16.
Proof.
  intros a m H.
  assert (K : In a (map N.of_nat (seq 48 10) ++ map N.of_nat (seq 65 6) ++ map N.of_nat (seq 97 6))).
  { destruct H as [[H _]|[[H _]|[H _]]]; apply in_or_app.
    - left. apply in_map_iff. exists (N.to_nat a). split; [lia|]. apply in_seq. lia.
    - right. apply in_or_app. left. apply in_map_iff. exists (N.to_nat a). split; [lia|]. apply in_seq. lia.
    - right. apply in_or_app. right. apply in_map_iff. exists (N.to_nat a). split; [lia|]. apply in_seq. lia. }
  assert (E : hexval a = Some m).
  { unfold hexval, is_digit. destruct H as [[H ->]|[[H ->]|[H ->]]];
    destruct (N.leb_spec 48 a), (N.leb_spec a 57), (N.leb_spec 65 a), (N.leb_spec a 70), (N.leb_spec 97 a), (N.leb_spec a 102); cbn [andb]; try lia; auto. }
  split; [exact K|]. split; [exact E|].
  destruct H as [[H ->]|[[H ->]|[H ->]]]; lia.
Qed.
Lemma any_hexd : forall a, any_hex a -> exists m, hex_digit a m.
Proof.
  intros a H. unfold any_hex in H. unfold hex_digit.
  cbn in H. repeat destruct H as [<-|H]; try (eexists; left; split; [lia|reflexivity]);
    try (eexists; right; left; split; [lia|reflexivity]); try (eexists; right; right; split; [lia|reflexivity]).
Qed.
Lemma int16_hexd : forall a b m n, hex_digit a m -> hex_digit b n -> int16 a b = Some (Z.of_N (16 * m + n)).
Proof. intros a b m n Ha Hb. apply hexd_any in Ha as (_ & Ha & _). apply hexd_any in Hb as (_ & Hb & _). unfold int16. now rewrite Ha, Hb. Qed.
Lemma hexd_fun : forall a m m', hex_digit a m -> hex_digit a m' -> m = m'.
Proof. intros a m m' H H'. apply hexd_any in H as (_ & H & _). apply hexd_any in H' as (_ & H' & _). congruence. Qed.
Lemma upcase_hexd : forall a m, hex_digit a m -> ~ 65 <= a <= 70 -> hex_digit (upcase a) m /\ lower_hex a = true /\ upper1 a = upcase a.
Proof.
  intros a m H Hn. unfold upcase, hex_digit, lower_hex, upper1, is_lower, is_digit in *.
  destruct H as [[H ->]|[[H ->]|[H ->]]]; [|lia|]; destruct (N.leb_spec 97 a); try lia.
  - split; [left; split; lia|]. destruct (N.leb_spec 48 a), (N.leb_spec a 57), (N.leb_spec a 122); cbn [andb orb]; auto; lia.
  - split; [right; left; split; lia|]. destruct (N.leb_spec 48 a), (N.leb_spec a 57), (N.leb_spec a 122), (N.leb_spec a 102); cbn [andb orb]; auto; lia.
Qed.
Lemma lower_hexd : forall a m, hex_digit a m -> lower_hex a = false -> 65 <= a <= 70.
Proof.
  intros a m H E. unfold lower_hex, is_digit in E. destruct H as [[H _]|[[H _]|[H _]]]; auto;
  destruct (N.leb_spec 48 a), (N.leb_spec a 57), (N.leb_spec 97 a), (N.leb_spec a 102); cbn [andb orb] in E; try discriminate E; lia.
Qed.
Lemma lower_hexd' : forall a m, hex_digit a m -> lower_hex a = true -> ~ 65 <= a <= 70.
Proof.
  intros a m H E Hn. unfold lower_hex, is_digit in E.
  destruct (N.leb_spec 48 a), (N.leb_spec a 57), (N.leb_spec 97 a), (N.leb_spec a 102); cbn [andb orb] in E; try discriminate E; lia.
Qed.
Lemma any_hex_lf : forall a, any_hex a -> a <> 10.
Proof. intros a H ->. unfold any_hex in H. cbn in H. repeat destruct H as [H|H]; try discriminate H. destruct H. Qed.

(** ** Decoding and upper case, triplet by triplet *)
Definition dec1 (a b : N) : str :=
  match int16 a b with Some z => if mem (Z.to_N z) DECODABLE then [Z.to_N z] else [37; a; b] | None => [] end.
Definition up1 (a b : N) : str := if lower_hex a && lower_hex b then [37; upper1 a; upper1 b] else [37; a; b].
Lemma np_esc : forall a b s, any_hex a -> any_hex b -> np (37 :: a :: b :: s) = dec1 a b ++ np s.
Proof.
  intros a b s Ha Hb. change 37 with cPCT. rewrite dec_esc by (apply any_hex_ne; assumption).
  unfold dec1. destruct (int16_hex a b Ha Hb) as (n & -> & _). rewrite N2Z.id.
  destruct (Z.ltb_spec (Z.of_N n) 0); [lia|]. destruct (mem n DECODABLE); reflexivity.
Qed.
Lemma ue_esc : forall a b s, any_hex a -> any_hex b -> ue (37 :: a :: b :: s) = up1 a b ++ ue s.
Proof.
  intros a b s Ha Hb. change 37 with cPCT. rewrite ue_pct. unfold up1. destruct (lower_hex a && lower_hex b); auto.
  rewrite !ue_cons by (apply any_hex_ne; assumption). reflexivity.
Qed.
Lemma np_app : forall x y, pct_wellformed x -> np (x ++ y) = np x ++ np y.
Proof.
  intros x y H. induction H; cbn [app]; auto.
  - rewrite !dec_char by assumption. cbn [app]. now rewrite IHpct_wellformed.
  - rewrite !np_esc by assumption. now rewrite IHpct_wellformed, app_assoc.
Qed.
Lemma ue_app : forall x y, pct_wellformed x -> ue (x ++ y) = ue x ++ ue y.
Proof.
  intros x y H. induction H; cbn [app]; auto.
  - rewrite !ue_cons by assumption. cbn [app]. now rewrite IHpct_wellformed.
  - rewrite !ue_esc by assumption. now rewrite IHpct_wellformed, app_assoc.
Qed.
Lemma dec1_cases : forall a b m n, hex_digit a m -> hex_digit b n ->
  dec1 a b = if unreserved (16 * m + n) then [16 * m + n] else [37; a; b].
Proof. intros. unfold dec1. rewrite (int16_hexd a b m n) by assumption. rewrite N2Z.id, decodable_unreserved. reflexivity. Qed.
Lemma unres_ne : forall c, unreserved c = true -> c <> 37 /\ c <> 10.
Proof. intros c H. split; intros ->; discriminate H. Qed.
Lemma text_np : forall y, text y -> text (np y).
Proof.
  intros y [Hw Hl]. split; [now apply norm_pct_wf|].
  induction Hw as [|c s Hc Hw IH|a b s Ha Hb Hw IH]; [intros []| |].
  - rewrite dec_char by assumption. intros [E|E]; [apply Hl; now left|]. apply IH; auto. intro; apply Hl; now right.
  - rewrite np_esc by assumption. destruct (any_hexd a Ha) as (m & Hm). destruct (any_hexd b Hb) as (n & Hn).
    rewrite (dec1_cases a b m n) by assumption. intro E. apply in_app_or in E as [E|E].
    + destruct (unreserved (16 * m + n)) eqn:U.
      * destruct E as [E|[]]. apply unres_ne in U. tauto.
      * destruct E as [E|[E|[E|[]]]]; [discriminate E| |]; [apply any_hex_lf in Ha|apply any_hex_lf in Hb]; congruence.
    + apply IH; auto. intro; apply Hl; now right; right; right.
Qed.
Lemma up1_wf : forall a b, any_hex a -> any_hex b -> pct_wellformed (up1 a b) /\ ~ In 10 (up1 a b).
Proof.
  intros a b Ha Hb. destruct (any_hexd a Ha) as (m & Hm). destruct (any_hexd b Hb) as (n & Hn). unfold up1.
  destruct (lower_hex a) eqn:La; cbn [andb]; [destruct (lower_hex b) eqn:Lb|].
  - pose proof (upcase_hexd a m Hm (lower_hexd' a m Hm La)) as (Hu & _ & Ua).
    pose proof (upcase_hexd b n Hn (lower_hexd' b n Hn Lb)) as (Hv & _ & Ub).
    rewrite Ua, Ub. apply hexd_any in Hu as (Hu & _). apply hexd_any in Hv as (Hv & _).
    split; [now apply wf_esc|]. intros [E|[E|[E|[]]]]; [discriminate E| |];
      [apply any_hex_lf in Hu|apply any_hex_lf in Hv]; congruence.
  - split; [now apply wf_esc|]. intros [E|[E|[E|[]]]]; [discriminate E| |];
      [apply any_hex_lf in Ha|apply any_hex_lf in Hb]; congruence.
  - split; [now apply wf_esc|]. intros [E|[E|[E|[]]]]; [discriminate E| |];
      [apply any_hex_lf in Ha|apply any_hex_lf in Hb]; congruence.
Qed.
Lemma text_ue : forall y, text y -> text (ue y).
Proof.
  intros y [Hw Hl]. induction Hw as [|c s Hc Hw IH|a b s Ha Hb Hw IH].
  - split; [constructor|intros []].
  - rewrite ue_cons by assumption. destruct IH as [I1 I2]; [intro; apply Hl; now right|].
    split; [now constructor|]. intros [E|E]; [apply Hl; now left|auto].
  - rewrite ue_esc by assumption. destruct IH as [I1 I2]; [intro; apply Hl; now right; right; right|].
    destruct (up1_wf a b Ha Hb) as [U1 U2]. split; [now apply wf_app|]. intro E. apply in_app_or in E as [E|E]; auto.
Qed.

(** ** The scheme in lower case *)
Fixpoint sch (u : str) : option (str * str) :=
  match u with
  | [] => None
  | c :: u' => if c =? 58 then Some ([], u') else if mem c (lit "/?#") then None
               else match sch u' with Some (p, r) => Some (c :: p, r) | None => None end
  end.
Definition lows (u : str) : str := match sch u with Some (p, r) => lower p ++ 58 :: r | None => u end.
Lemma sch_inv : forall u p r, sch u = Some (p, r) -> u = p ++ 58 :: r /\ avoids p (lit ":/?#").
Proof.
  induction u as [|c u IH]; intros p r H; [discriminate H|]. cbn [sch] in H.
  destruct (N.eqb_spec c 58) as [E|E]; [injection H as <- <-; subst; split; auto; intros x _ []|].
  destruct (mem c (lit "/?#")) eqn:M; [discriminate H|].
  destruct (sch u) as [[p' r']|]; [|discriminate H]. injection H as <- <-.
  destruct (IH _ _ eq_refl) as [-> A]. split; auto.
  intros x Hx [<-|Hi]; [|apply (A x); auto].
  change (lit ":/?#") with (58 :: lit "/?#") in Hx. destruct Hx as [Hx|Hx]; [congruence|]. assert (mem c (lit "/?#") = true) by (apply mem_In; exact Hx). congruence.
Qed.
Lemma sch_app : forall p r, avoids p (lit ":/?#") -> sch (p ++ 58 :: r) = Some (p, r).
Proof.
  induction p as [|c p IH]; intros r H; [reflexivity|]. cbn [app sch].
  destruct (N.eqb_spec c 58) as [E|E]; [exfalso; apply (H 58); [now left|now left]|].
  destruct (mem c (lit "/?#")) eqn:M.
  - exfalso. apply mem_In in M. apply (H c); [right; exact M|now left].
  - rewrite IH; auto. intros x Hx Hi. apply (H x); auto. now right.
Qed.
Lemma lows_app : forall p r, avoids p (lit ":/?#") -> lows (p ++ 58 :: r) = lower p ++ 58 :: r.
Proof. intros p r H. unfold lows. now rewrite sch_app. Qed.
Lemma avoids_cv : forall s t, casevar s t -> avoids s (lit ":/?#") -> avoids t (lit ":/?#").
Proof.
  intros s t C H x Hx. apply (not_in_cv x s t); auto.
  cbn in Hx. repeat destruct Hx as [<-|Hx]; try reflexivity. destruct Hx.
Qed.
Definition head_ok (y : str) : Prop := match y with [] => True | c :: _ => c <> cPCT /\ lower_hex c = false end.
Lemma ue_app_head : forall x y, head_ok y -> ue (x ++ y) = ue x ++ ue y.
Proof.
  intros x [|c y] H; [now rewrite !app_nil_r|]. destruct H as [H1 H2].
  rewrite ue_app_delim by assumption. now rewrite (ue_cons c y).
Qed.
Definition cue (c : components) : components :=
  Comp (option_map ue (scheme c)) (option_map ue (authority c)) (ue (path c)) (option_map ue (query c)) (option_map ue (fragment c)).
Lemma legal_cue : forall c, legal c -> legal (cue c).
Proof.
  intros c H. apply (legal_casevar c); auto; unfold cue; cbn [scheme authority path query fragment]; try apply ue_casevar.
  - destruct (scheme c); cbn; auto. apply ue_casevar.
  - destruct (authority c); cbn; auto. apply ue_casevar.
  - destruct (query c); cbn; auto. apply ue_casevar.
Qed.
Definition tailq (q f : option str) : str :=
  (match q with Some q => lit "?" ++ q | None => [] end) ++ (match f with Some f => lit "#" ++ f | None => [] end).
Lemma ue_tailq : forall q f, ue (tailq q f) = tailq (option_map ue q) (option_map ue f).
Proof.
  intros q f. unfold tailq.
  assert (F : ue (match f with Some f => lit "#" ++ f | None => [] end) = match option_map ue f with Some f => lit "#" ++ f | None => [] end).
  { destruct f; cbn [option_map]; auto. change (lit "#") with [35]. cbn [app]. now apply ue_cons. }
  rewrite ue_app_head by (destruct f; cbn; auto; split; [discriminate|reflexivity]).
  rewrite F. f_equal. destruct q; cbn [option_map]; auto. change (lit "?") with [63]. cbn [app]. now apply ue_cons.
Qed.
Lemma tailq_head : forall q f, head_ok (tailq q f).
Proof. intros [q|] [f|]; cbn; auto; (split; [discriminate|reflexivity]). Qed.
Lemma ue_recompose : forall c, legal c -> ue (recompose c) = recompose (cue c).
Proof.
  intros c H. unfold recompose, cue. cbn [scheme authority path query fragment].
  fold (tailq (query c) (fragment c)). fold (tailq (option_map ue (query c)) (option_map ue (fragment c))).
  assert (P : ue (path c ++ tailq (query c) (fragment c)) = ue (path c) ++ tailq (option_map ue (query c)) (option_map ue (fragment c)))
    by (rewrite ue_app_head by apply tailq_head; now rewrite ue_tailq).
  assert (A : ue ((match authority c with Some a => lit "//" ++ a | None => [] end) ++ path c ++ tailq (query c) (fragment c)) =
    (match option_map ue (authority c) with Some a => lit "//" ++ a | None => [] end) ++ ue (path c) ++ tailq (option_map ue (query c)) (option_map ue (fragment c))).
  { destruct (authority c) as [a|] eqn:Ea; cbn [option_map]; [|exact P].
    change (lit "//") with [47; 47]. cbn [app]. rewrite !ue_cons by discriminate. do 2 f_equal.
    rewrite ue_app_head; [now rewrite P|].
    destruct (legal_path_auth c H) as [E|(p & E)]; [congruence| |]; rewrite E; [apply tailq_head|]. cbn. split; [discriminate|reflexivity]. }
  destruct (scheme c) as [s|]; cbn [option_map]; [|exact A].
  change (lit ":") with [58]. rewrite <- !app_assoc. cbn [app].
  rewrite ue_app_delim by (discriminate || reflexivity). now rewrite A.
Qed.
Lemma app_split : forall (p t x r : str), p ++ t = x ++ 58 :: r ->
  (exists p2, p = x ++ 58 :: p2) \/ (exists x2, x = p ++ x2 /\ t = x2 ++ 58 :: r).
Proof.
  induction p as [|c p IH]; intros t x r H; cbn [app] in H; [right; exists x; auto|].
  destruct x as [|d x]; cbn [app] in H; injection H as -> H; [left; exists p; auto|].
  destruct (IH t x r H) as [(p2 & ->)|(x2 & -> & ->)]; [left; exists p2; auto|right; exists x2; auto].
Qed.
Lemma lows_recompose : forall c, legal c ->
  lows (recompose c) = recompose (Comp (option_map lower (scheme c)) (authority c) (path c) (query c) (fragment c)).
Proof.
  intros c H. unfold recompose. cbn [scheme authority path query fragment]. fold (tailq (query c) (fragment c)).
  destruct (scheme c) as [s|] eqn:Es; cbn [option_map].
  - destruct (legal_scheme c H s Es) as [_ A]. change (lit ":") with [58]. rewrite <- !app_assoc. cbn [app]. now apply lows_app.
  - cbn [app]. destruct (authority c) as [a|] eqn:Ea; [reflexivity|]. cbn [app]. unfold lows.
    destruct (sch _) as [[x r]|] eqn:E; auto. apply sch_inv in E as [E A].
    enough (x = []) as -> by (rewrite E; reflexivity).
    apply app_split in E as [(p2 & E)|(x2 & -> & E)].
    + destruct (legal_path_noscheme c H Es Ea x p2 E) as [K|[K|K]]; auto; exfalso; revert K; apply A; cbn; tauto.
    + exfalso. unfold tailq in E. destruct x2 as [|y x2].
      * destruct (query c); [discriminate E|]. destruct (fragment c); discriminate E.
      * assert (Hy : y = 63 \/ y = 35) by (destruct (query c); [left; injection E; auto|]; destruct (fragment c); [right; injection E; auto|discriminate E]).
        apply (A y); [cbn; intuition|]. apply in_or_app. right. now left.
Qed.
Lemma normalize_case_lows : forall u, ~ In 10 u -> normalize_case false u = Ok (lows (ue u)).
Proof.
  intros u HL. destruct (split_total u HL) as (c & Lc & Rc & Ec). unfold normalize_case. rewrite Ec. cbn [bind]. f_equal.
  rewrite ncp_eq, unsplit_recompose. rewrite <- Rc, ue_recompose, lows_recompose by (auto; now apply legal_cue).
  unfold of_parts, to_parts, cue. cbn [u_scheme u_auth u_path u_query u_frag scheme authority path query fragment].
  f_equal. f_equal.
  - now destruct (scheme c).
  - destruct (authority c) as [a|]; auto. cbn [option_map]. unfold nauth. now destruct (ue a).
Qed.

(** ** Keys *)
Definition loc (k : str) : str := if prefixb (lit "file://localhost/") k then lit "file://" ++ skipn 16 k else k.
Definition key (u : str) : str := loc (lows (ue (np u))).
Lemma normalizekey_ok : forall u, text u -> normalizekey u = Ok (key u).
Proof.
  intros u H. unfold normalizekey, normalize_percent_encoding, percent_decode_. cbn [bind raw].
  rewrite normalize_case_lows; [reflexivity|]. apply text_np in H as [_ H]. exact H.
Qed.
Lemma N_app : forall x y, pct_wellformed x -> ue (np (x ++ y)) = ue (np x) ++ ue (np y).
Proof. intros x y H. rewrite np_app, ue_app; auto. now apply norm_pct_wf. Qed.
Lemma N_esc : forall a b m n, hex_digit a m -> hex_digit b n ->
  ue (np [37; a; b]) = if unreserved (16 * m + n) then [16 * m + n] else up1 a b.
Proof.
  intros a b m n Ha Hb. pose proof (hexd_any a m Ha) as (A & _). pose proof (hexd_any b n Hb) as (B & _).
  rewrite np_esc by assumption. rewrite dec_nil, app_nil_r, (dec1_cases a b m n) by assumption.
  destruct (unreserved (16 * m + n)) eqn:U.
  - apply unres_ne in U as [U _]. now rewrite ue_cons.
  - rewrite ue_esc by assumption. cbn [upper_escapes]. apply app_nil_r.
Qed.
Lemma plain_N : forall s r, ~ In 37 s -> ue (np (s ++ r)) = s ++ ue (np r).
Proof.
  induction s as [|c s IH]; intros r H; cbn [app]; auto.
  assert (c <> 37) by (intro; apply H; now left).
  rewrite dec_char, ue_cons by assumption. f_equal. apply IH. intro; apply H; now right.
Qed.
Lemma scheme_plain : forall s, scheme_name s -> ~ In 37 s /\ ~ In 10 s.
Proof.
  intros s (c & t & -> & Hc & Ht). rewrite Forall_forall in Ht.
  split; (intros [->|H]; [discriminate Hc|]; apply Ht in H as [H|[H|H]]; [discriminate H|discriminate H|]);
    cbn in H; repeat destruct H as [H|H]; try discriminate H; auto.
Qed.
Lemma scheme_avoids : forall s, scheme_name s -> avoids s (lit ":/?#").
Proof. intros s H. now apply scheme_name_legal in H. Qed.
Lemma step_key : forall u v, step u v -> key u = key v.
Proof.
  intros u v H. unfold key. destruct H as [x y a b m n Hx Hy Ha Hb U|x y a b m n Hx Hy Ha Hb La Lb|s t r Hs Ht E Hr|r Hr].
  - do 2 f_equal. rewrite !N_app by (try apply Hx; try (apply wf_esc; [now apply (hexd_any a m)|now apply (hexd_any b n)]); (apply pwf_char; [apply unreserved_rfc, unres_ne in U; tauto|apply pwf_nil])).
    rewrite (N_esc a b m n) by assumption. apply unreserved_rfc in U. rewrite U. do 2 f_equal.
    apply unres_ne in U as [U _]. rewrite dec_char by assumption. rewrite dec_nil. now rewrite ue_cons.
  - destruct (upcase_hexd a m Ha La) as (Ha' & Ta & Ua). destruct (upcase_hexd b n Hb Lb) as (Hb' & Tb & Ub).
    pose proof (hexd_any a m Ha) as (A & _). pose proof (hexd_any b n Hb) as (B & _).
    pose proof (hexd_any _ m Ha') as (A' & _). pose proof (hexd_any _ n Hb') as (B' & _).
    do 2 f_equal. rewrite !N_app by (try apply Hx; now apply wf_esc).
    rewrite (N_esc a b m n), (N_esc (upcase a) (upcase b) m n) by assumption.
    do 2 f_equal. destruct (unreserved (16 * m + n)); auto. unfold up1. rewrite Ta, Tb. cbn [andb].
    destruct (lower_hex (upcase a)) eqn:Ca; cbn [andb]; [destruct (lower_hex (upcase b)) eqn:Cb|].
    + pose proof (upcase_hexd _ m Ha' (lower_hexd' _ m Ha' Ca)) as (_ & _ & X).
      pose proof (upcase_hexd _ n Hb' (lower_hexd' _ n Hb' Cb)) as (_ & _ & Y). rewrite X, Y, Ua, Ub.
      assert (I : forall z, upcase (upcase z) = upcase z \/ 129 <= z) by (intro z; unfold upcase; destruct (N.leb_spec 97 z); [destruct (N.leb_spec 97 (z - 32))|destruct (N.leb_spec 97 z)]; lia).
      assert (L : forall z k, hex_digit z k -> z < 129) by (intros z k [[? _]|[[? _]|[? _]]]; lia).
      pose proof (L a m Ha). pose proof (L b n Hb).
      destruct (I a) as [-> |]; [|lia]. destruct (I b) as [-> |]; [|lia]. reflexivity.
    + now rewrite Ua, Ub.
    + now rewrite Ua, Ub.
  - f_equal. change (lit ":") with [58]. rewrite (plain_N s), (plain_N t) by (now apply scheme_plain). cbn [app].
    rewrite !dec_char, !ue_cons by discriminate. rewrite !lows_app by (now apply scheme_avoids).
    unfold lower. now rewrite E.
  - rewrite (plain_N (lit "file://localhost/")), (plain_N (lit "file:///")) by (cbn; intros K; repeat destruct K as [K|K]; try discriminate K; auto). reflexivity.
Qed.
Lemma equivalent_key : forall u v, equivalent u v -> key u = key v.
Proof. intros u v H. induction H; auto; [now apply step_key|congruence]. Qed.

Lemma text_app : forall x y, text x -> text y -> text (x ++ y).
Proof. intros x y [A B] [C D]. split; [now apply wf_app|]. intro H. apply in_app_or in H. tauto. Qed.
Lemma text_char : forall c, c <> 37 -> c <> 10 -> text [c].
Proof. intros c A B. split; [repeat constructor; auto|]. intros [H|[]]; auto. Qed.
Lemma text_esc : forall a b, any_hex a -> any_hex b -> text [37; a; b].
Proof.
  intros a b A B. split; [now apply wf_esc|].
  intros [H|[H|[H|[]]]]; [discriminate H| |]; [apply any_hex_lf in A|apply any_hex_lf in B]; congruence.
Qed.
Lemma text_uncons : forall c s, ~ In 10 (c :: s) -> c <> 10 /\ ~ In 10 s.
Proof. intros c s H. split; intro; apply H; [now left|now right]. Qed.
Lemma eq_np : forall y, text y -> forall x, text x -> equivalent (x ++ y) (x ++ np y).
Proof.
  intros y [Hw Hl]. induction Hw as [|c s Hc Hw IH|a b s Ha Hb Hw IH]; intros x Hx.
  - apply rst_refl.
  - apply text_uncons in Hl as [Hc' Hl]. rewrite dec_char by assumption.
    change (c :: s) with ([c] ++ s). change (c :: np s) with ([c] ++ np s). rewrite !app_assoc.
    apply IH; auto. apply text_app; auto. now apply text_char.
  - apply text_uncons in Hl as [_ Hl]. apply text_uncons in Hl as [_ Hl]. apply text_uncons in Hl as [_ Hl].
    rewrite np_esc by assumption. destruct (any_hexd a Ha) as (m & Hm). destruct (any_hexd b Hb) as (n & Hn).
    rewrite (dec1_cases a b m n) by assumption. change (37 :: a :: b :: s) with ([37; a; b] ++ s).
    destruct (unreserved (16 * m + n)) eqn:U.
    + apply rst_trans with (x ++ [16 * m + n] ++ s).
      * apply rst_step. apply step_unreserved; auto; [now split|]. now apply unreserved_rfc.
      * rewrite !app_assoc. apply IH; auto. apply text_app; auto. apply unres_ne in U. now apply text_char.
    + rewrite !app_assoc. apply IH; auto. apply text_app; auto. now apply text_esc.
Qed.
Lemma eq_ue : forall y, text y -> forall x, text x -> equivalent (x ++ y) (x ++ ue y).
Proof.
  intros y [Hw Hl]. induction Hw as [|c s Hc Hw IH|a b s Ha Hb Hw IH]; intros x Hx.
  - apply rst_refl.
  - apply text_uncons in Hl as [Hc' Hl]. rewrite ue_cons by assumption.
    change (c :: s) with ([c] ++ s). change (c :: ue s) with ([c] ++ ue s). rewrite !app_assoc.
    apply IH; auto. apply text_app; auto. now apply text_char.
  - apply text_uncons in Hl as [_ Hl]. apply text_uncons in Hl as [_ Hl]. apply text_uncons in Hl as [_ Hl].
    rewrite ue_esc by assumption. destruct (any_hexd a Ha) as (m & Hm). destruct (any_hexd b Hb) as (n & Hn).
    change (37 :: a :: b :: s) with ([37; a; b] ++ s).
    apply rst_trans with (x ++ up1 a b ++ s).
    + unfold up1. destruct (lower_hex a) eqn:La; cbn [andb]; [destruct (lower_hex b) eqn:Lb|]; try apply rst_refl.
      pose proof (upcase_hexd a m Hm (lower_hexd' a m Hm La)) as (_ & _ & Ua).
      pose proof (upcase_hexd b n Hn (lower_hexd' b n Hn Lb)) as (_ & _ & Ub). rewrite Ua, Ub.
      apply rst_step. apply (step_case x s a b m n); auto; [now split|now apply (lower_hexd' a m)|now apply (lower_hexd' b n)].
    + rewrite !app_assoc. apply IH; auto. apply text_app; auto. exact (up1_wf a b Ha Hb).
Qed.
Lemma scheme_lower : forall s, scheme_name s -> scheme_name (lower s).
Proof.
  intros s (c & t & -> & Hc & Ht). exists (lower1 c), (lower t). split; [reflexivity|].
  assert (Al : forall c, is_alpha c = true -> is_alpha (lower1 c) = true).
  { intros x H. unfold is_alpha, lower1, is_upper, is_lower in *.
    destruct (N.leb_spec 65 x), (N.leb_spec x 90), (N.leb_spec 97 x), (N.leb_spec x 122); cbn [andb orb] in *; try discriminate H;
    destruct (N.leb_spec 97 (x + 32)), (N.leb_spec (x + 32) 122), (N.leb_spec 65 (x + 32)), (N.leb_spec (x + 32) 90),
      (N.leb_spec 65 x), (N.leb_spec x 90), (N.leb_spec 97 x), (N.leb_spec x 122); cbn [andb orb]; auto; lia. }
  split; [now apply Al|]. unfold lower. apply Forall_map. eapply Forall_impl; [|exact Ht].
  intros x [H|[H|H]]; [left; now apply Al|right; left|right; right].
  - unfold lower1. destruct (is_upper x) eqn:U; auto. exfalso. unfold is_digit, is_upper in *.
    destruct (N.leb_spec 65 x), (N.leb_spec x 57); cbn [andb] in *; try discriminate U; try (rewrite andb_false_r in H; discriminate H); lia.
  - cbn in H. repeat destruct H as [<-|H]; try (cbn; tauto).
Qed.
Lemma lower_idem1 : forall c, lower1 (lower1 c) = lower1 c.
Proof.
  intro c. unfold lower1 at 2 3. destruct (is_upper c) eqn:U; [|unfold lower1; now rewrite U].
  unfold lower1, is_upper in *. destruct (N.leb_spec 65 c), (N.leb_spec c 90); cbn [andb] in U; try discriminate U.
  destruct (N.leb_spec 65 (c + 32)), (N.leb_spec (c + 32) 90); cbn [andb]; auto; lia.
Qed.
Lemma scheme_text : forall s, scheme_name s -> text (s ++ lit ":").
Proof.
  intros s H. apply scheme_plain in H as [A B]. apply text_app; [|apply text_char; discriminate].
  split; auto. induction s as [|c s IH]; constructor; [intro; apply A; now left|]. apply IH; intro; [apply A|apply B]; now right.
Qed.
Lemma text_split : forall x y, ~ In 37 x -> text (x ++ y) -> text y.
Proof.
  induction x as [|c x IH]; intros y H T; auto. destruct T as [T L]. apply text_uncons in L as [_ L].
  apply IH; [intro; apply H; now right|]. split; auto. cbn [app] in T. inversion T; subst; auto. exfalso. apply H. now left.
Qed.
Lemma uri_key : forall u, uri u -> equivalent u (key u) /\ uri (key u).
Proof.
  intros u [(s & r & -> & Hs) T]. pose proof (scheme_plain s Hs) as [P1 P2].
  assert (Tr : text r) by (rewrite app_assoc in T; apply (text_split (s ++ lit ":")); auto; intro K; apply in_app_or in K as [K|[K|[]]]; [auto|discriminate K]).
  assert (E : ue (np (s ++ lit ":" ++ r)) = s ++ lit ":" ++ ue (np r)).
  { rewrite plain_N by assumption. f_equal. rewrite plain_N; auto. intros [K|[]]; discriminate K. }
  pose proof (text_np r Tr) as Tn. pose proof (text_ue _ Tn) as Tu.
  assert (Q : equivalent (s ++ lit ":" ++ r) (lower s ++ lit ":" ++ ue (np r))).
  { apply rst_trans with (s ++ lit ":" ++ np r); [rewrite !app_assoc; apply eq_np; auto; now apply scheme_text|].
    apply rst_trans with (s ++ lit ":" ++ ue (np r)); [rewrite !app_assoc; apply eq_ue; auto; now apply scheme_text|].
    apply rst_step. apply step_scheme; auto; [now apply scheme_lower|]. unfold lower. rewrite map_map. apply map_ext. intro; symmetry; apply lower_idem1. }
  assert (Kw : key (s ++ lit ":" ++ r) = loc (lower s ++ lit ":" ++ ue (np r))).
  { unfold key. rewrite E. change (lit ":") with [58]. cbn [app]. rewrite lows_app; auto. now apply scheme_avoids. }
  assert (Ul : uri (lower s ++ lit ":" ++ ue (np r))).
  { split; [exists (lower s), (ue (np r)); split; auto; now apply scheme_lower|]. rewrite app_assoc.
    apply text_app; auto. now apply scheme_text, scheme_lower. }
  rewrite Kw. revert Q Ul. generalize (lower s ++ lit ":" ++ ue (np r)). intros w Q Ul. unfold loc.
  destruct (prefixb (lit "file://localhost/") w) eqn:Pf; auto.
  apply prefixb_spec in Pf as (z & ->).
  assert (Tz : text z) by (destruct Ul as [_ Ul]; apply text_split in Ul; auto; cbn; intros K; repeat destruct K as [K|K]; try discriminate K; auto).
  change (lit "file://" ++ skipn 16 (lit "file://localhost/" ++ z)) with (lit "file:///" ++ z). split.
  - eapply rst_trans; [exact Q|]. apply rst_step. now apply step_localhost.
  - split.
    + exists (lit "file"), (lit "///" ++ z). split; [reflexivity|]. exists 102, (lit "ile"). split; [reflexivity|]. split; [reflexivity|].
      repeat constructor.
    + apply text_app; auto. split; [cbn; repeat constructor; discriminate|]. cbn. intros K; repeat destruct K as [K|K]; try discriminate K; auto.
Qed.
Lemma key_equivalent : forall u v, uri u -> uri v -> (key u = key v <-> equivalent u v).
Proof.
  intros u v Hu Hv. split; [|apply equivalent_key]. intro E.
  apply rst_trans with (key u); [now apply uri_key|]. rewrite E. apply rst_sym. now apply uri_key.
Qed.
