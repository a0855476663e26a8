(** * Reading dates: the regular expressions and the grammar agree *)
From Coq Require Import NArith ZArith QArith String List Bool Lia Arith.
From Verif Require Import PyStr PyErr IsModel IsSpec IsCal.
Import ListNotations.
Open Scope Z_scope.

(** ** Digits *)
Definition digs (a : str) : Prop := Forall (fun c => is_digit c = true) a.
Lemma is_digit_dig : forall n, 0 <= n <= 9 -> is_digit (dig n) = true.
Proof. intros n H. unfold is_digit, dig. apply andb_true_iff. split; apply N.leb_le; lia. Qed.
Lemma dig_val : forall n, 0 <= n <= 9 -> Z.of_N (dig n) - 48 = n.
Proof. intros n H. unfold dig. lia. Qed.
Lemma digit_is : forall c, is_digit c = true -> c = dig (Z.of_N c - 48) /\ 0 <= Z.of_N c - 48 <= 9.
Proof. intros c H. unfold is_digit in H. apply andb_true_iff in H as [H1 H2]. apply N.leb_le in H1, H2. unfold dig. lia. Qed.
Ltac dm := Z.to_euclidean_division_equations; lia.
Lemma two_digs : forall n, 0 <= n <= 99 -> digs (two n).
Proof. intros n H. repeat constructor; apply is_digit_dig; dm. Qed.
Lemma three_digs : forall n, 0 <= n <= 999 -> digs (three n).
Proof. intros n H. constructor; [apply is_digit_dig; dm|apply two_digs; dm]. Qed.
Lemma four_digs : forall n, 0 <= n <= 9999 -> digs (four n).
Proof. intros n H. apply Forall_app. split; apply two_digs; dm. Qed.
Lemma two_val : forall n, 0 <= n <= 99 -> to_int (two n) = n.
Proof. intros n H. unfold to_int, two. cbn [fold_left]. rewrite !dig_val by dm. dm. Qed.
Lemma three_val : forall n, 0 <= n <= 999 -> to_int (three n) = n.
Proof. intros n H. unfold to_int, three, two. cbn [fold_left]. rewrite !dig_val by dm. dm. Qed.
Lemma four_val : forall n, 0 <= n <= 9999 -> to_int (four n) = n.
Proof. intros n H. unfold to_int, four, two. cbn [fold_left app]. rewrite !dig_val by dm. dm. Qed.
Lemma two_of : forall a, length a = 2%nat -> digs a -> a = two (to_int a) /\ 0 <= to_int a <= 99.
Proof.
  intros [|x [|y [|? ?]]] L D; try discriminate L. inversion D as [|? ? Dx D1]; subst. inversion D1 as [|? ? Dy _]; subst.
  apply digit_is in Dx as [Ex Rx], Dy as [Ey Ry]. unfold to_int, two. cbn [fold_left]. set (p := Z.of_N x - 48) in *. set (q := Z.of_N y - 48) in *.
  split; [|lia]. rewrite Ex, Ey. repeat f_equal; dm.
Qed.
Lemma three_of : forall a, length a = 3%nat -> digs a -> a = three (to_int a) /\ 0 <= to_int a <= 999.
Proof.
  intros [|x [|y [|z [|? ?]]]] L D; try discriminate L. inversion D as [|? ? Dx D1]; subst. inversion D1 as [|? ? Dy D2]; subst. inversion D2 as [|? ? Dz _]; subst.
  apply digit_is in Dx as [Ex Rx], Dy as [Ey Ry], Dz as [Ez Rz]. unfold to_int, three, two. cbn [fold_left].
  set (p := Z.of_N x - 48) in *. set (q := Z.of_N y - 48) in *. set (r := Z.of_N z - 48) in *.
  split; [|lia]. rewrite Ex, Ey, Ez. repeat f_equal; dm.
Qed.
Lemma four_of : forall a, length a = 4%nat -> digs a -> a = four (to_int a) /\ 0 <= to_int a <= 9999.
Proof.
  intros [|x [|y [|z [|w [|? ?]]]]] L D; try discriminate L. inversion D as [|? ? Dx D1]; subst. inversion D1 as [|? ? Dy D2]; subst. inversion D2 as [|? ? Dz D3]; subst. inversion D3 as [|? ? Dw _]; subst.
  apply digit_is in Dx as [Ex Rx], Dy as [Ey Ry], Dz as [Ez Rz], Dw as [Ew Rw]. unfold to_int, four, two. cbn [fold_left app].
  set (p := Z.of_N x - 48) in *. set (q := Z.of_N y - 48) in *. set (r := Z.of_N z - 48) in *. set (t := Z.of_N w - 48) in *.
  split; [|lia]. rewrite Ex, Ey, Ez, Ew. repeat f_equal; dm.
Qed.
Lemma digits_app : forall n a r, length a = n -> digs a -> digits n (a ++ r) = Some (a, r).
Proof.
  induction n as [|n IH]; intros [|x a] r L D; try discriminate L; [reflexivity|]. inversion D as [|? ? Dx D1]; subst. cbn [digits app]. rewrite Dx, IH; auto.
Qed.
Definition stop (s : str) : Prop := match s with [] => True | c :: _ => is_digit c = false end.
Lemma digits_short : forall n a r, (length a < n)%nat -> digs a -> stop r -> digits n (a ++ r) = None.
Proof.
  induction n as [|n IH]; intros [|x a] r L D S; cbn [length] in L; try lia.
  - cbn [app digits]. destruct r as [|c r]; [reflexivity|]. cbn in S. now rewrite S.
  - inversion D as [|? ? Dx D1]; subst. cbn [digits app]. rewrite Dx, IH; auto; lia.
Qed.
Lemma digits_stop : forall n r, stop r -> digits (S n) r = None.
Proof. intros n [|c r] S; [reflexivity|]. cbn in *. now rewrite S. Qed.
Lemma digits_inv : forall n s a r, digits n s = Some (a, r) -> s = a ++ r /\ length a = n /\ digs a.
Proof.
  induction n as [|n IH]; intros s a r H; cbn [digits] in H.
  - injection H as <- <-. repeat split. constructor.
  - destruct s as [|c s]; [discriminate H|]. destruct (is_digit c) eqn:E; [|discriminate H]. destruct (digits n s) as [[b t]|] eqn:K; [|discriminate H].
    injection H as <- <-. apply IH in K as (-> & <- & D). repeat split. now constructor.
Qed.
Lemma strip_app : forall p s, strip p (p ++ s) = Some s.
Proof.
  intros p s. unfold strip. assert (E : prefixb p (p ++ s) = true) by (apply prefixb_spec; eauto). rewrite E. f_equal.
  induction p as [|x p IH]; [reflexivity|]. cbn [length app skipn]. apply IH. cbn [prefixb app] in E. now rewrite N.eqb_refl in E.
Qed.
Lemma strip_inv : forall p s r, strip p s = Some r -> s = p ++ r.
Proof.
  intros p s r H. unfold strip in H. destruct (prefixb p s) eqn:E; [|discriminate H]. injection H as <-. apply prefixb_spec in E as [r ->].
  f_equal. clear. induction p; [reflexivity|]. cbn [length app skipn]. exact IHp.
Qed.

(** ** Dates *)
Definition dspec_of (y : str) (p : datepart) : dspec :=
  match p with
  | Julian j => DOrd (to_int y) (to_int j)
  | Month m (Some d) => DDay (to_int y) (to_int m) (to_int d)
  | Month m None => DDay (to_int y) (to_int m) 1
  | YearOnly => DDay (to_int y) 1 1
  end.
Definition stop_date (s : str) : Prop := match s with [] => True | c :: _ => is_digit c = false /\ c <> 45%N end.
Lemma stop_stop : forall s, stop_date s -> stop s.
Proof. intros [|c s]; [trivial|]. now intros [H _]. Qed.
Lemma strip_dash : forall s, stop_date s -> strip (lit "-") s = None.
Proof.
  intros [|c s] H; [reflexivity|]. destruct H as [_ H]. unfold strip. change (lit "-") with [45%N]. cbn [prefixb]. destruct (N.eqb_spec 45 c); [congruence|reflexivity].
Qed.
Lemma strip_nondig : forall a s, digs a -> a <> [] -> strip (lit "-") (a ++ s) = None.
Proof.
  intros [|x a] s D N; [congruence|]. inversion D as [|? ? Dx _]; subst. unfold strip. change (lit "-") with [45%N]. cbn [prefixb app].
  destruct (N.eqb_spec 45 x) as [<- |]; [discriminate Dx|reflexivity].
Qed.
Lemma len2 : forall n, length (two n) = 2%nat. Proof. reflexivity. Qed.
Lemma len3 : forall n, length (three n) = 3%nat. Proof. reflexivity. Qed.
Lemma len4 : forall n, length (four n) = 4%nat. Proof. reflexivity. Qed.
Lemma rx_date_ok : forall ds d r, date_text ds d -> stop_date r -> exists y p, rx_date (ds ++ r) = Some (y, p, r) /\ dspec_of y p = d.
Proof.
  intros ds d r T S. pose proof (stop_stop r S) as S'. destruct T as [y m d Hy Hm Hd|y m sep Hy Hm Hs|y Hy|y j sep Hy Hj Hs].
  - exists (four y), (Month (two m) (Some (two d))). split; [|cbn [dspec_of]; now rewrite four_val, !two_val by lia].
    rewrite <- !app_assoc. unfold rx_date. rewrite digits_app by (auto using len4, four_digs). rewrite strip_app. unfold rx_rest.
    rewrite digits_short by (try apply two_digs; auto; try exact Logic.I; cbn; lia).
    rewrite digits_app by (auto using len2, two_digs). rewrite strip_app, digits_app by (auto using len2, two_digs). reflexivity.
  - exists (four y), (Month (two m) None). split; [|cbn [dspec_of]; now rewrite four_val, !two_val by lia].
    rewrite <- !app_assoc. unfold rx_date. rewrite digits_app by (auto using len4, four_digs). destruct Hs as [-> | ->].
    + rewrite strip_app. unfold rx_rest. rewrite digits_short by (try apply two_digs; auto; cbn; lia).
      rewrite digits_app by (auto using len2, two_digs). now rewrite strip_dash.
    + rewrite app_nil_l, strip_nondig by (try discriminate; now apply two_digs). unfold rx_rest. rewrite digits_short by (try apply two_digs; auto; cbn; lia).
      rewrite digits_app by (auto using len2, two_digs). change (strip [] r) with (Some r). cbv iota beta.
      now rewrite digits_stop.
  - exists (four y), YearOnly. split; [|cbn [dspec_of]; now rewrite four_val by lia].
    unfold rx_date. rewrite digits_app by (auto using len4, four_digs). rewrite strip_dash by assumption. unfold rx_rest.
    now rewrite !digits_stop.
  - exists (four y), (Julian (three j)). split; [|cbn [dspec_of]; now rewrite four_val, three_val by lia].
    rewrite <- !app_assoc. unfold rx_date. rewrite digits_app by (auto using len4, four_digs). destruct Hs as [-> | ->].
    + rewrite strip_app. unfold rx_rest. now rewrite digits_app by (auto using len3, three_digs).
    + rewrite app_nil_l, strip_nondig by (try discriminate; now apply three_digs). unfold rx_rest. now rewrite digits_app by (auto using len3, three_digs).
Qed.
Lemma digits_more : forall n m s a r b t, digits n s = Some (a, r) -> digits m r = Some (b, t) -> forall k, (k <= n + m)%nat -> digits k s <> None.
Proof.
  intros n m s a r b t H1 H2 k Hk. apply digits_inv in H1 as (-> & L1 & D1). apply digits_inv in H2 as (-> & L2 & D2).
  rewrite app_assoc. rewrite <- (firstn_skipn k (a ++ b)), <- app_assoc. rewrite digits_app; [discriminate| |].
  - rewrite firstn_length, app_length. lia.
  - apply Forall_forall. intros x Hx. assert (D : digs (a ++ b)) by (apply Forall_app; auto). eapply Forall_forall in D; [exact D|].
    rewrite <- (firstn_skipn k (a ++ b)). apply in_or_app. auto.
Qed.
Lemma rx_rest_inv : forall sep s p r y, rx_rest sep s = Some (p, r) -> sep = lit "-" \/ sep = [] -> length y = 4%nat -> digs y ->
  exists q, y ++ sep ++ s = q ++ r /\ date_text q (dspec_of y p).
Proof.
  intros sep s p r y H Hs Ly Dy. destruct (four_of y Ly Dy) as [Ey Ry]. unfold rx_rest in H. destruct (digits 3 s) as [[j r0]|] eqn:J.
  - injection H as <- <-. apply digits_inv in J as (-> & L & D). destruct (three_of j L D) as [Ej Rj]. exists (y ++ sep ++ j). split; [now rewrite <- !app_assoc|].
    cbn [dspec_of]. rewrite Ey at 1. rewrite Ej at 1. now apply dt_ordinal.
  - destruct (digits 2 s) as [[m r0]|] eqn:M; [|discriminate H].
    assert (K : Some (Month m None, r0) = Some (p, r) -> exists q, y ++ sep ++ s = q ++ r /\ date_text q (dspec_of y p)).
    { intro E. injection E as <- <-. apply digits_inv in M as (-> & L & D). destruct (two_of m L D) as [Em Rm]. exists (y ++ sep ++ m). split; [now rewrite <- !app_assoc|].
      cbn [dspec_of]. rewrite Ey at 1. rewrite Em at 1. now apply dt_month. }
    destruct (strip sep r0) as [r1|] eqn:P; [|auto]. destruct (digits 2 r1) as [[d r2]|] eqn:Q; [|auto]. clear K. injection H as <- <-.
    apply strip_inv in P. subst r0. destruct Hs as [-> | ->].
    + apply digits_inv in M as (-> & L & D). apply digits_inv in Q as (-> & L2 & D2). destruct (two_of m L D) as [Em Rm]. destruct (two_of d L2 D2) as [Ed Rd].
      exists (y ++ lit "-" ++ m ++ lit "-" ++ d). split; [now rewrite <- !app_assoc|]. cbn [dspec_of]. rewrite Ey at 1. rewrite Em at 1. rewrite Ed at 1. now apply dt_full.
    + cbn [app] in M. exfalso. apply (digits_more _ _ _ _ _ _ _ M Q 3); [lia|assumption].
Qed.
Lemma rx_date_inv : forall s y p r, rx_date s = Some (y, p, r) -> exists q, s = q ++ r /\ date_text q (dspec_of y p).
Proof.
  intros s y p r H. unfold rx_date in H. destruct (digits 4 s) as [[y0 r0]|] eqn:Y; [|discriminate H]. apply digits_inv in Y as (-> & L & D).
  destruct (match strip (lit "-") r0 with Some r1 => rx_rest (lit "-") r1 | None => None end) as [[p1 r1]|] eqn:A.
  - injection H as <- <- <-. destruct (strip (lit "-") r0) as [r2|] eqn:B; [|discriminate A]. apply strip_inv in B. subst r0. apply (rx_rest_inv _ _ _ _ y0) in A; auto.
  - destruct (rx_rest [] r0) as [[p1 r1]|] eqn:B; injection H as <- <- <-.
    + apply (rx_rest_inv _ _ _ _ y0) in B; auto.
    + exists y0. split; [reflexivity|]. destruct (four_of y0 L D) as [E R]. cbn [dspec_of]. rewrite E at 1. now apply dt_year.
Qed.

(** ** Zones *)
Definition east_of (z : tzd) : Z := - extract_tzd z.
Lemma rx_tzd_sign : forall (plus : bool) x, rx_tzd ((if plus then lit "+" else lit "-") ++ x) =
  match digits 2 x with
  | Some (h, r1) => match digits 2 (match strip (lit ":") r1 with Some r2 => r2 | None => r1 end) with Some (m, r3) => Some (Offset plus h m, r3) | None => None end
  | None => None
  end.
Proof. intros [] x; reflexivity. Qed.
Lemma rx_tzd_ok : forall z e r, zone_text z e -> exists t, rx_tzd (z ++ r) = Some (t, r) /\ east_of t = e.
Proof.
  intros z e r T. destruct T as [|plus h m sep Hh Hm Hs].
  - exists Zulu. split; reflexivity.
  - exists (Offset plus (two h) (two m)). split.
    + assert (K : digits 2 match strip (lit ":") (sep ++ two m ++ r) with Some r2 => r2 | None => sep ++ two m ++ r end = Some (two m, r)).
      { destruct Hs as [-> | ->]; [rewrite strip_app; apply digits_app; auto using two_digs|]. rewrite app_nil_l.
        replace (strip (lit ":") (two m ++ r)) with (@None str); [apply digits_app; auto using two_digs|].
        pose proof (two_digs m Hm) as D. inversion D as [|? ? D1 _]; subst. unfold strip. change (lit ":") with [58%N]. unfold two. cbn [prefixb app].
        destruct (N.eqb_spec 58 (dig (m / 10))) as [E|]; [|reflexivity]. rewrite <- E in D1. discriminate D1. }
      rewrite <- !app_assoc, rx_tzd_sign. rewrite digits_app by (auto using len2, two_digs). now rewrite K.
    + unfold east_of, extract_tzd. rewrite !two_val by lia. destruct plus; lia.
Qed.
Lemma rx_tzd_inv : forall s t r, rx_tzd s = Some (t, r) -> exists z, s = z ++ r /\ zone_text z (east_of t).
Proof.
  intros [|c s] t r H; [discriminate H|]. unfold rx_tzd in H. destruct ((c =? 43) || (c =? 45))%N eqn:C.
  - destruct (digits 2 s) as [[h r1]|] eqn:D1; [|discriminate H]. apply digits_inv in D1 as (-> & L1 & G1). destruct (two_of h L1 G1) as [Eh Rh].
    assert (exists sep r2, (sep = lit ":" \/ sep = []) /\ r1 = sep ++ r2 /\ match strip (lit ":") r1 with Some r2 => r2 | None => r1 end = r2) as (sep & r2 & Hs & -> & E).
    { destruct (strip (lit ":") r1) as [r2|] eqn:P; [apply strip_inv in P; exists (lit ":"), r2; auto|exists [], r1; auto]. }
    rewrite E in H. destruct (digits 2 r2) as [[m r3]|] eqn:D2; [|discriminate H]. injection H as <- <-.
    apply digits_inv in D2 as (-> & L2 & G2). destruct (two_of m L2 G2) as [Em Rm].
    exists ((if (c =? 43)%N then lit "+" else lit "-") ++ h ++ sep ++ m). split.
    + rewrite <- !app_assoc. apply orb_true_iff in C as [C|C]; apply N.eqb_eq in C; rewrite C; reflexivity.
    + unfold east_of, extract_tzd. rewrite Eh at 1. rewrite Em at 1.
      replace (- (if (c =? 43)%N then - ((to_int h * 60 + to_int m) * 60) else (to_int h * 60 + to_int m) * 60)) with ((if (c =? 43)%N then 1 else -1) * (3600 * to_int h + 60 * to_int m)) by (destruct (c =? 43)%N; lia).
      now apply zt_offset.
  - destruct (N.eqb_spec c 90) as [-> |]; [|discriminate H]. injection H as <- <-. exists (lit "Z"). split; [reflexivity|constructor].
Qed.
Lemma zone_stop : forall z e r, zone_text z e -> stop (z ++ r) /\ z <> [] /\ (forall c x, z ++ r = c :: x -> (c = 43 \/ c = 45 \/ c = 90)%N).
Proof.
  intros z e r [|plus h m sep Hh Hm Hs].
  - repeat split; [discriminate|]. intros c x E. injection E as <- _. auto.
  - destruct plus; repeat split; try discriminate; intros c x E; injection E as <- _; auto.
Qed.

(** ** Times *)
Definition tspec_of (t : option timepart) : tspec :=
  match t with
  | None => {| s_h := 0; s_m := 0; s_s := 0; s_frac := None; s_east := 0 |}
  | Some t => {| s_h := to_int (t_h t); s_m := to_int (t_m t);
                 s_s := match t_s t with Some (d, _) => to_int d | None => 0 end;
                 s_frac := match t_s t with Some (_, f) => f | None => None end;
                 s_east := east_of (t_z t) |}
  end.
Lemma rx_tzd_digit : forall a r, digs a -> a <> [] -> rx_tzd (a ++ r) = None.
Proof.
  intros [|c a] r D N; [congruence|]. inversion D as [|? ? Dc _]; subst. cbn [app rx_tzd]. unfold is_digit in Dc. apply andb_true_iff in Dc as [D1 D2]. apply N.leb_le in D1, D2.
  destruct (N.eqb_spec c 43); [lia|]. destruct (N.eqb_spec c 45); [lia|]. destruct (N.eqb_spec c 90); [lia|reflexivity].
Qed.
(** Where no seconds are written. *)
Lemma no_seconds : forall sep z e r, sep = lit ":" \/ sep = [] -> zone_text z e -> match strip sep (z ++ r) with Some r1 => rx_seconds r1 | None => None end = None.
Proof.
  intros sep z e r Hs T. destruct (zone_stop z e r T) as (S & N & C). destruct (z ++ r) as [|c x] eqn:E; [destruct z; [congruence|discriminate E]|].
  specialize (C c x eq_refl). destruct Hs as [-> | ->].
  - unfold strip. change (lit ":") with [58%N]. cbn [prefixb]. destruct (N.eqb_spec 58 c) as [<- |]; [destruct C as [C|[C|C]]; discriminate C|reflexivity].
  - change (strip [] (c :: x)) with (Some (c :: x)). unfold rx_seconds. now rewrite digits_stop.
Qed.
Lemma rx_seconds_plain : forall s z e r, 0 <= s <= 99 -> zone_text z e -> rx_seconds (two s ++ z ++ r) = Some (two s, None, z ++ r).
Proof.
  intros s z e r Hs T. unfold rx_seconds. rewrite digits_app by (auto using len2, two_digs). destruct (zone_stop z e r T) as (S & N & C).
  destruct (z ++ r) as [|c x] eqn:E; [reflexivity|]. specialize (C c x eq_refl).
  destruct (N.eqb_spec c 46); [lia|]. destruct (N.eqb_spec c 44); [lia|]. reflexivity.
Qed.
Lemma rx_seconds_frac : forall s c f z e r, 0 <= s <= 99 -> zone_text z e -> c = 46%N \/ c = 44%N -> f <> [] -> digs f ->
  rx_seconds (two s ++ c :: f ++ z ++ r) = Some (two s, Some (c, f), z ++ r).
Proof.
  intros s c f z e r Hs T Hc Nf Df. unfold rx_seconds. rewrite digits_app by (auto using len2, two_digs). destruct (zone_stop z e r T) as (S & N & C).
  replace (((c =? 46) || (c =? 44))%N) with true by (destruct Hc as [-> | ->]; reflexivity). rewrite span_app.
  - destruct f; [congruence|reflexivity].
  - apply forallb_forall. intros x Hx. eapply Forall_forall in Df; [exact Df|exact Hx].
  - exact S.
Qed.
Lemma rx_time_ok : forall ts t r, time_text ts t -> ts <> [] -> exists q, ts = lit "T" ++ q /\ exists p, rx_time (q ++ r) = Some (p, r) /\ tspec_of (Some p) = t.
Proof.
  assert (W : forall h sep q p r, 0 <= h <= 99 -> sep = lit ":" \/ sep = [] -> (exists m q', 0 <= m <= 99 /\ q = two m ++ q') -> rx_time_sep (two h) sep (q ++ r) = Some (p, r) -> rx_time ((two h ++ sep ++ q) ++ r) = Some (p, r)).
  { intros h sep q p r Hh Hs (m & q' & Hm & ->) H. rewrite <- !app_assoc in *. unfold rx_time. rewrite digits_app by (auto using len2, two_digs). destruct Hs as [-> | ->].
    - now rewrite strip_app, H.
    - rewrite app_nil_l. replace (strip (lit ":") (two m ++ q' ++ r)) with (@None str); [exact H|].
      pose proof (two_digs m Hm) as D. inversion D as [|? ? D1 _]; subst. unfold strip. change (lit ":") with [58%N]. unfold two. cbn [prefixb app].
      destruct (N.eqb_spec 58 (dig (m / 10))) as [E|]; [|reflexivity]. rewrite <- E in D1. discriminate D1. }
  intros ts t r T NE. destruct T as [|h m sep z e Hh Hm Hs Tz|h m s sep z e Hh Hm Hss Hs Tz|h m s sep c f z e Hh Hm Hss Hs Tz Hc Nf Df]; [congruence| | |].
  - destruct (rx_tzd_ok z e r Tz) as (tz & R & E). eexists. split; [reflexivity|]. exists {| t_h := two h; t_m := two m; t_s := None; t_z := tz |}. split.
    + apply W; eauto. unfold rx_time_sep. rewrite <- app_assoc, digits_app by (auto using len2, two_digs). now rewrite (no_seconds sep z e r Hs Tz), R.
    + unfold tspec_of. cbn [t_h t_m t_s t_z]. now rewrite !two_val, E by lia.
  - destruct (rx_tzd_ok z e r Tz) as (tz & R & E). eexists. split; [reflexivity|]. exists {| t_h := two h; t_m := two m; t_s := Some (two s, None); t_z := tz |}. split.
    + apply W; eauto. unfold rx_time_sep. rewrite <- !app_assoc, digits_app by (auto using len2, two_digs). rewrite strip_app, (rx_seconds_plain s z e r Hss Tz). now rewrite R.
    + unfold tspec_of. cbn [t_h t_m t_s t_z]. now rewrite !two_val, E by lia.
  - destruct (rx_tzd_ok z e r Tz) as (tz & R & E). eexists. split; [reflexivity|]. exists {| t_h := two h; t_m := two m; t_s := Some (two s, Some (c, f)); t_z := tz |}. split.
    + apply W; eauto. unfold rx_time_sep. rewrite <- !app_assoc, digits_app by (auto using len2, two_digs). cbn [app]. rewrite strip_app, <- app_assoc.
      rewrite (rx_seconds_frac s c f z e r Hss Tz Hc Nf); [now rewrite R|]. eapply Forall_impl; [|exact Df]. intros x [A B]. unfold is_digit. apply andb_true_iff. split; now apply N.leb_le.
    + unfold tspec_of. cbn [t_h t_m t_s t_z]. now rewrite !two_val, E by lia.
Qed.
Lemma rx_seconds_inv : forall s d f r, rx_seconds s = Some (d, f, r) -> length d = 2%nat /\ digs d /\
  match f with None => s = d ++ r | Some (c, f) => (c = 46 \/ c = 44)%N /\ f <> [] /\ digs f /\ s = d ++ c :: f ++ r end.
Proof.
  intros s d f r H. unfold rx_seconds in H. destruct (digits 2 s) as [[d0 r0]|] eqn:D; [|discriminate H]. apply digits_inv in D as (-> & L & G).
  destruct r0 as [|c r1]; [injection H as <- <- <-; auto|]. destruct ((c =? 46) || (c =? 44))%N eqn:C; [|injection H as <- <- <-; auto].
  destruct (span is_digit r1) as [f0 r2] eqn:S. destruct f0 as [|x f0]; injection H as <- <- <-; [auto|]. repeat split; auto.
  - apply orb_true_iff in C as [C|C]; apply N.eqb_eq in C; auto.
  - discriminate.
  - apply span_spec in S as (_ & F & _). apply Forall_forall. now apply forallb_forall.
  - apply span_spec in S as (E & _ & _). now rewrite E.
Qed.
Lemma rx_time_sep_inv : forall h sep s p r, rx_time_sep h sep s = Some (p, r) -> length h = 2%nat -> digs h -> sep = lit ":" \/ sep = [] ->
  exists q, lit "T" ++ h ++ sep ++ s = q ++ r /\ time_text q (tspec_of (Some p)).
Proof.
  intros h sep s p r H Lh Dh Hs. destruct (two_of h Lh Dh) as [Eh Rh]. unfold rx_time_sep in H. destruct (digits 2 s) as [[m r0]|] eqn:M; [|discriminate H].
  apply digits_inv in M as (-> & Lm & Dm). destruct (two_of m Lm Dm) as [Em Rm].
  assert (K : match rx_tzd r0 with Some (z, r3) => Some ({| t_h := h; t_m := m; t_s := None; t_z := z |}, r3) | None => None end = Some (p, r) ->
              exists q, lit "T" ++ h ++ sep ++ m ++ r0 = q ++ r /\ time_text q (tspec_of (Some p))).
  { intro E. destruct (rx_tzd r0) as [[z r3]|] eqn:Z; [|discriminate E]. injection E as <- <-. apply rx_tzd_inv in Z as (zt & -> & Tz).
    exists (lit "T" ++ h ++ sep ++ m ++ zt). split; [now rewrite <- !app_assoc|]. unfold tspec_of. cbn [t_h t_m t_s t_z]. rewrite Eh at 1. rewrite Em at 1. now apply tt_minutes. }
  destruct (strip sep r0) as [r1|] eqn:P; [|auto]. destruct (rx_seconds r1) as [[[d f] r2]|] eqn:S; [|auto]. destruct (rx_tzd r2) as [[z r3]|] eqn:Z; [|auto].
  clear K. injection H as <- <-. apply strip_inv in P. apply rx_seconds_inv in S as (Ld & Dd & F). destruct (two_of d Ld Dd) as [Ed Rd].
  apply rx_tzd_inv in Z as (zt & -> & Tz). unfold tspec_of. cbn [t_h t_m t_s t_z]. destruct f as [[c f]|].
  - destruct F as (C & Nf & Df & ->). subst r0. exists (lit "T" ++ h ++ sep ++ m ++ sep ++ d ++ c :: f ++ zt). split; [rewrite <- !app_assoc; cbn [app]; now rewrite <- !app_assoc|].
    rewrite Eh at 1. rewrite Em at 1. rewrite Ed at 1. apply tt_fraction; auto. eapply Forall_impl; [|exact Df]. intros x G. unfold is_digit in G. apply andb_true_iff in G as [A B]. apply N.leb_le in A, B. lia.
  - subst r1 r0. exists (lit "T" ++ h ++ sep ++ m ++ sep ++ d ++ zt). split; [now rewrite <- !app_assoc|].
    rewrite Eh at 1. rewrite Em at 1. rewrite Ed at 1. now apply tt_seconds.
Qed.
Lemma rx_time_inv : forall s p r, rx_time s = Some (p, r) -> exists q, lit "T" ++ s = q ++ r /\ time_text q (tspec_of (Some p)).
Proof.
  intros s p r H. unfold rx_time in H. destruct (digits 2 s) as [[h r0]|] eqn:D; [|discriminate H]. apply digits_inv in D as (-> & L & G).
  destruct (match strip (lit ":") r0 with Some r1 => rx_time_sep h (lit ":") r1 | None => None end) as [x|] eqn:A.
  - injection H as ->. destruct (strip (lit ":") r0) as [r1|] eqn:B; [|discriminate A]. apply strip_inv in B. subst r0. eapply rx_time_sep_inv in A; eauto.
  - eapply rx_time_sep_inv in H; eauto.
Qed.

(** ** The whole text *)
Lemma rx_ok : forall ds ts d t, date_text ds d -> time_text ts t ->
  exists y p q, rx_datetime (ds ++ ts) = Some (y, p, q, []) /\ dspec_of y p = d /\ tspec_of q = t.
Proof.
  intros ds ts d t Td Tt. assert (S : stop_date ts) by (destruct Tt; cbn; auto; split; reflexivity || discriminate).
  destruct (rx_date_ok ds d ts Td S) as (y & p & R & E). exists y, p. unfold rx_datetime. rewrite R. destruct ts as [|c ts'] eqn:ET.
  - exists None. split; [reflexivity|]. split; [assumption|]. inversion Tt. reflexivity.
  - rewrite <- ET in *. destruct (rx_time_ok ts t [] Tt) as (q & Eq & tp & R2 & E2); [rewrite ET; discriminate|].
    rewrite Eq, strip_app. rewrite app_nil_r in R2. rewrite R2. eauto.
Qed.
Lemma rx_inv : forall s y p q, rx_datetime s = Some (y, p, q, []) -> exists ds ts, s = ds ++ ts /\ date_text ds (dspec_of y p) /\ time_text ts (tspec_of q).
Proof.
  intros s y p q H. unfold rx_datetime in H. destruct (rx_date s) as [[[y0 p0] r]|] eqn:D; [|discriminate H]. apply rx_date_inv in D as (ds & -> & Td).
  destruct (strip (lit "T") r) as [r1|] eqn:P.
  - destruct (rx_time r1) as [[t r2]|] eqn:T.
    + injection H as -> -> <- ->. apply rx_time_inv in T as (ts & E & Tt). apply strip_inv in P. rewrite app_nil_r in E. subst. exists ds, (lit "T" ++ r1). repeat split; auto.
    + injection H as -> -> <- ->. exists ds, []. repeat split; auto. constructor.
  - injection H as -> -> <- ->. exists ds, []. repeat split; auto. constructor.
Qed.

(** ** The values *)
Definition time_ok (t : tspec) : bool :=
  (s_h t <=? 23) && (s_m t <=? 59) &&
  match s_frac t with
  | None => s_s t <=? 60
  | Some (c, f) => (c =? 46)%N && ((s_s t <? 60) || (s_s t =? 60) && forallb (N.eqb 48) f)
  end.
Lemma time_ok_iff : forall t, time_ok t = true <-> time_in_range t.
Proof.
  intro t. unfold time_ok, time_in_range. rewrite !andb_true_iff, !Z.leb_le. destruct (s_frac t) as [[c f]|].
  - rewrite andb_true_iff, orb_true_iff, andb_true_iff, N.eqb_eq, Z.ltb_lt, Z.eqb_eq, forallb_forall, Forall_forall. split.
    + intros ((A & B) & C & D). repeat split; try lia; auto. intros E x Hx. destruct D as [D|[_ D]]; [lia|]. specialize (D x Hx). apply N.eqb_eq in D. auto.
    + intros (A & B & C & D & E). repeat split; auto. destruct (Z.eq_dec (s_s t) 60) as [F|F]; [right|left; lia]. split; [assumption|]. intros x Hx. apply N.eqb_eq. symmetry. auto.
  - rewrite Z.leb_le. tauto.
Qed.
Definition gen_date (west : Z) (fuel : nat) (d : dspec) : result (Z * Z * Z) :=
  match d with
  | DOrd y j => find_julian west fuel y j
  | DDay y m d => if (1 <=? m) && (m <=? 12) && (1 <=? d) && (d <=? 31) then Ok (y, m, d) else Err ValueError
  end.
Definition gen (west : Z) (fuel : nat) (d : dspec) (t : tspec) : result Z :=
  do dt <- gen_date west fuel d ;
  if time_ok t then let '(yy, mm, dd) := dt in do v <- mktime west yy mm dd (s_h t) (s_m t) (s_s t) ; Ok (v - s_east t - west)
  else Err ValueError.
Lemma time_pos : forall ts t, time_text ts t -> 0 <= s_h t /\ 0 <= s_m t /\ 0 <= s_s t /\ match s_frac t with Some (c, f) => (c = 46 \/ c = 44)%N | None => True end.
Proof. intros ts t []; cbn; repeat split; lia || auto. Qed.
Lemma parse_gen : forall west fuel ds ts d t, date_text ds d -> time_text ts t -> parse west fuel (ds ++ ts) = gen west fuel d t.
Proof.
  intros west fuel ds ts d t Td Tt. destruct (rx_ok ds ts d t Td Tt) as (y & p & q & R & <- & <-). unfold parse, gen. rewrite R.
  assert (D : extract_date west fuel y p = gen_date west fuel (dspec_of y p)).
  { destruct p as [j|m [d0|]|]; cbn [dspec_of gen_date extract_date]; try reflexivity.
    - destruct ((1 <=? to_int m) && (to_int m <=? 12)); cbn [andb]; reflexivity.
    - destruct ((1 <=? to_int m) && (to_int m <=? 12)); cbn [andb]; reflexivity. }
  rewrite D. destruct (gen_date west fuel (dspec_of y p)) as [dt|e]; [|reflexivity]. cbn [bind].
  assert (E : extract_time q = if time_ok (tspec_of q) then Ok (s_h (tspec_of q), s_m (tspec_of q), s_s (tspec_of q)) else Err ValueError).
  { apply time_pos in Tt. destruct q as [q|]; [|reflexivity]. unfold extract_time, time_ok, tspec_of in *. cbn [s_h s_m s_s s_frac] in *. destruct Tt as (P1 & P2 & P3 & P4).
    apply Z.leb_le in P1, P2. rewrite P1, P2. cbn [andb]. destruct (to_int (t_h q) <=? 23); [|reflexivity]. cbn [andb]. destruct (to_int (t_m q) <=? 59); [|reflexivity]. cbn [andb].
    destruct (t_s q) as [[d [[c f]|]]|]; [| |reflexivity].
    - destruct P4 as [-> | ->]; [|reflexivity]. cbn [N.eqb Pos.eqb andb]. reflexivity.
    - reflexivity. }
  rewrite E. destruct (time_ok (tspec_of q)); [|reflexivity]. cbn [bind]. destruct dt as [[yy mm] dd].
  destruct (mktime west yy mm dd (s_h (tspec_of q)) (s_m (tspec_of q)) (s_s (tspec_of q))) as [v|e]; [|reflexivity]. cbn [bind]. f_equal.
  destruct q as [q|]; cbn [tspec_of s_east]; unfold east_of; lia.
Qed.
Lemma timegm_day : forall y m d h mi s, 1 <= m <= 12 -> timegm y m d h mi s = 86400 * day_number y m d + 3600 * h + 60 * mi + s.
Proof. intros y m d h mi s H. unfold timegm. rewrite Z.div_small, Z.mod_small by lia. now replace (y + 0) with y by lia; replace (m - 1 + 1) with m by lia. Qed.
Lemma mktime_ok : forall west y m d h mi s, 1900 <= y -> mktime west y m d h mi s = Ok (timegm y m d h mi s + west).
Proof. intros west y m d h mi s H. unfold mktime, mktime_year. destruct (Z.ltb_spec y 1900); [lia|reflexivity]. Qed.
Lemma instant_num : forall d h mi s e v, valid_date d -> (instant d h mi s e v <-> v = 86400 * num d + 3600 * h + 60 * mi + s - e).
Proof.
  intros d h mi s e v V. split.
  - intros (n & D & ->). apply day_is_num in D as [_ <-]. reflexivity.
  - intros ->. exists (num d). split; [now apply num_day_is|reflexivity].
Qed.

(** ** Ordinal days *)
Fixpoint jl (lp : bool) (fuel : nat) (julian month day : Z) : option (Z * Z) :=
  match fuel with
  | O => None
  | S f =>
    if (1 <=? month) && (month <=? 12) && (1 <=? day) && (before_month lp month + day <=? (if lp then 366 else 365)) then
      let jday := before_month lp month + day in
      let diff := Z.abs (jday - julian) in
      if julian <? jday then
        if diff <? day then jl lp f julian month (day - diff) else jl lp f julian (month - 1) 31
      else if jday <? julian then
        if day + diff <? 28 then jl lp f julian month (day + diff) else jl lp f julian (month + 1) day
      else Some (month, day)
    else None
  end.
Lemma yday_month : forall west y m d, 0 <= west < 86400 -> 1 <= m <= 12 -> 1 <= d -> before_month (leap y) m + d <= ylen y ->
  yday (timegm y m d 0 0 0 + west) = before_month (leap y) m + d.
Proof.
  intros west y m d Hw Hm Hd Hl. rewrite timegm_day by assumption. pose proof (month_mono (leap y) m Hm). rewrite (yday_year y (day_number y m d)).
  - unfold day_number. lia.
  - unfold day_number. lia.
  - symmetry. apply Z.div_unique with west; lia.
Qed.
Lemma jl_loop : forall west fuel y j m d r s, 0 <= west < 86400 -> 1900 <= y -> jl (leap y) fuel j m d = Some (r, s) ->
  forall fuel', (fuel <= fuel')%nat -> find_loop west fuel' y j m d = Ok (y, r, s) /\ before_month (leap y) r + s = j /\ 1 <= r <= 12.
Proof.
  intros west fuel. induction fuel as [|fuel IH]; intros y j m d r s Hw Hy H fuel' Hf; [discriminate H|]. destruct fuel' as [|fuel']; [lia|].
  cbn [jl] in H. destruct ((1 <=? m) && (m <=? 12) && (1 <=? d) && (before_month (leap y) m + d <=? (if leap y then 366 else 365))) eqn:C; [|discriminate H].
  rewrite !andb_true_iff, !Z.leb_le in C. cbv zeta in H. cbn [find_loop]. rewrite mktime_ok by assumption. cbn [bind]. fold (ylen y) in C. rewrite yday_month by lia. cbv zeta.
  destruct (Z.ltb_spec j (before_month (leap y) m + d)) as [L|L].
  - destruct (Z.abs (before_month (leap y) m + d - j) <? d); apply IH; auto; lia.
  - destruct (Z.ltb_spec (before_month (leap y) m + d) j) as [K|K].
    + destruct (d + Z.abs (before_month (leap y) m + d - j) <? 28); apply IH; auto; lia.
    + injection H as <- <-. repeat split; lia.
Qed.
Definition jcheck (lp : bool) (j : Z) : bool := match jl lp 40 j (j / 30 + 1) (j mod 30 + 1) with Some _ => true | None => false end.
Lemma jcheck_true : forallb (jcheck true) (map Z.of_nat (seq 1 359)) = true. Proof. vm_compute. reflexivity. Qed.
Lemma jcheck_false : forallb (jcheck false) (map Z.of_nat (seq 1 359)) = true. Proof. vm_compute. reflexivity. Qed.
Lemma jcheck_all : forall lp j, 1 <= j <= 359 -> jcheck lp j = true.
Proof.
  intros lp j Hj. assert (I : In j (map Z.of_nat (seq 1 359))) by (apply in_map_iff; exists (Z.to_nat j); split; [lia|apply in_seq; lia]).
  destruct lp; [pose proof jcheck_true as A|pose proof jcheck_false as A]; rewrite forallb_forall in A; exact (A j I).
Qed.
Lemma jcheck_some : forall lp j, jcheck lp j = true -> exists r s, jl lp 40 j (j / 30 + 1) (j mod 30 + 1) = Some (r, s).
Proof. intros lp j. unfold jcheck. generalize (jl lp 40 j (j / 30 + 1) (j mod 30 + 1)). intros [[r s]|] H; [eauto|discriminate H]. Qed.
Lemma julian_ok : forall west y j fuel, 0 <= west < 86400 -> 1900 <= y -> 1 <= j <= 359 -> (40 <= fuel)%nat ->
  exists m d, find_julian west fuel y j = Ok (y, m, d) /\ before_month (leap y) m + d = j /\ 1 <= m <= 12.
Proof.
  intros west y j fuel Hw Hy Hj Hf. destruct (jcheck_some _ _ (jcheck_all (leap y) j Hj)) as (m & d & E).
  exists m, d. unfold find_julian. exact (jl_loop west 40 y j _ _ m d Hw Hy E fuel Hf).
Qed.
Lemma loop_endless : forall west fuel y j m d, 0 <= west < 86400 -> 1900 <= y -> 363 <= j -> 4 <= d <= 7 -> j - d = 359 -> find_loop west fuel y j m d = Err endless.
Proof.
  intros west fuel. induction fuel as [|fuel IH]; intros y j m d Hw Hy Hj Hd Hjd; [reflexivity|]. cbn [find_loop]. rewrite mktime_ok by assumption. cbn [bind].
  assert (E : exists b, yday (timegm y m d 0 0 0 + west) = b + d /\ b <= 335).
  { set (y' := y + (m - 1) / 12). set (m' := (m - 1) mod 12 + 1). assert (1 <= m' <= 12) by (subst m'; pose proof (Z.mod_pos_bound (m - 1) 12); lia).
    replace (timegm y m d 0 0 0) with (timegm y' m' d 0 0 0).
    - exists (before_month (leap y') m'). assert (before_month (leap y') m' <= 335).
      { clear - H. clearbody m' y'. by_month H; destruct (leap y'); vm_compute; discriminate. }
      split; [|assumption]. apply yday_month; try lia.
      destruct (Z.eq_dec m' 12) as [-> |N]; [|pose proof (month_lt y' m' 12 ltac:(lia) ltac:(lia) ltac:(lia))].
      + pose proof (month_last y'). change (month_length y' 12) with 31 in H1. lia.
      + pose proof (month_last y'). change (month_length y' 12) with 31 in H2. pose proof (month_len_pos y' m'). lia.
    - rewrite timegm_day by assumption. unfold timegm. fold y' m'. lia. }
  destruct E as (b & -> & Hb). cbv zeta. destruct (Z.ltb_spec j (b + d)); [lia|]. destruct (Z.ltb_spec (b + d) j); [|lia].
  destruct (Z.ltb_spec (d + Z.abs (b + d - j)) 28); [lia|]. apply IH; auto.
Qed.
Lemma julian_endless : forall west fuel y j, 0 <= west < 86400 -> 1900 <= y -> 363 <= j <= 366 -> find_julian west fuel y j = Err endless.
Proof.
  intros west fuel y j Hw Hy Hj. unfold find_julian. assert (j mod 30 = j - 360) by dm. rewrite H. apply loop_endless; lia.
Qed.
