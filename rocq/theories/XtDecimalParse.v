(** * Lemmas about the patterns of format-number() *)
From Coq Require Import NArith ZArith QArith String List Bool Lia Arith.
From Verif Require Import PyStr PyErr SerModel XpNum XtDecimal XtDecimalSpec.
Import ListNotations.
Local Open Scope nat_scope.

Section Parse.
Variable sy : symbols.

Lemma nth_mid (x y : str) c : nth (List.length x) (x ++ c :: y) 0%N = c.
Proof. induction x as [|a x IH]; [reflexivity|exact IH]. Qed.
Lemma write_mid (x y : str) c : write (x ++ c :: y) (List.length x) c = x ++ c :: y.
Proof. induction x as [|a x IH]; [reflexivity|]. cbn [app List.length write]. f_equal. exact IH. Qed.
Lemma plain_number c : plain sy c -> number_char sy c = false.
Proof.
  intros H. unfold number_char. rewrite !orb_false_iff. repeat split; apply N.eqb_neq; intros ->; apply H; cbn; tauto.
Qed.
Lemma plain_quote c : plain sy c -> N.eqb c QUOTE = false.
Proof. intros H. apply N.eqb_neq. intros ->. apply H. cbn. tauto. Qed.
Lemma plain_sep c : plain sy c -> N.eqb c (separator sy) = false.
Proof. intros H. apply N.eqb_neq. intros ->. apply H. cbn. tauto. Qed.

Lemma sub_loop_step f P end_ st : p_pos st < end_ -> sub_loop sy (S f) P end_ st = bind (sub_step sy P end_ st) (sub_loop sy f P end_).
Proof. intros H. cbn [sub_loop]. destruct (Nat.leb_spec end_ (p_pos st)); [lia|reflexivity]. Qed.
Lemma sub_loop_end f P end_ st : end_ <= p_pos st -> sub_loop sy f P end_ st = Ok st.
Proof. intros H. destruct f; cbn [sub_loop]; (destruct (Nat.leb_spec end_ (p_pos st)); [reflexivity|lia]). Qed.

(** ** Prefixes and suffixes *)
Fixpoint mults (m : Z) (t : str) : option Z :=
  match t with
  | [] => Some m
  | c :: t' =>
    if N.eqb c (percent sy) then if Z.eqb m 1 then mults 100 t' else None
    else if N.eqb c (perMille sy) then if Z.eqb m 1 then mults 1000 t' else None
    else mults m t'
  end.
Lemma mults_app : forall a m b, mults m (a ++ b) = match mults m a with Some m' => mults m' b | None => None end.
Proof.
  induction a as [|c a IH]; intros m b; [reflexivity|]. cbn [app mults]. destruct (N.eqb c (percent sy)); [destruct (Z.eqb m 1); [apply IH|reflexivity]|].
  destruct (N.eqb c (perMille sy)); [destruct (Z.eqb m 1); [apply IH|reflexivity]|apply IH].
Qed.
Lemma mults_none : forall t m, percent sy <> perMille sy -> m <> 1%Z ->
  mults m t = match count_occ N.eq_dec t (percent sy), count_occ N.eq_dec t (perMille sy) with 0, 0 => Some m | _, _ => None end.
Proof.
  intros t m NE H. induction t as [|c t IH]; [reflexivity|]. cbn [mults count_occ]. destruct (N.eqb_spec c (percent sy)) as [E|E].
  - destruct (Z.eqb_spec m 1); [contradiction|]. destruct (N.eq_dec c (percent sy)); [reflexivity|contradiction].
  - destruct (N.eq_dec c (percent sy)); [contradiction|]. destruct (N.eqb_spec c (perMille sy)) as [E2|E2].
    + destruct (Z.eqb_spec m 1); [contradiction|]. destruct (N.eq_dec c (perMille sy)); [destruct (count_occ N.eq_dec t (percent sy)); reflexivity|contradiction].
    + destruct (N.eq_dec c (perMille sy)); [contradiction|exact IH].
Qed.
Lemma mults_scale t : percent sy <> perMille sy -> mults 1 t = scale sy t.
Proof.
  intros NE. unfold scale. induction t as [|c t IH]; [reflexivity|]. cbn [mults count_occ]. destruct (N.eqb_spec c (percent sy)) as [E|E].
  - change (1 =? 1)%Z with true. cbn iota. rewrite mults_none by (exact NE || discriminate). destruct (N.eq_dec c (percent sy)); [|contradiction].
    destruct (N.eq_dec c (perMille sy)); [congruence|]. destruct (count_occ N.eq_dec t (percent sy)); destruct (count_occ N.eq_dec t (perMille sy)); reflexivity.
  - destruct (N.eq_dec c (percent sy)); [contradiction|]. destruct (N.eqb_spec c (perMille sy)) as [E2|E2].
    + change (1 =? 1)%Z with true. cbn iota. rewrite mults_none by (exact NE || discriminate). destruct (N.eq_dec c (perMille sy)); [|contradiction].
      destruct (count_occ N.eq_dec t (percent sy)) as [|[|j]]; destruct (count_occ N.eq_dec t (perMille sy)); reflexivity.
    + destruct (N.eq_dec c (perMille sy)); [contradiction|exact IH].
Qed.

Definition adv (st : pst) (n : nat) (m : Z) : pst :=
  {| p_buf := p_buf st; p_pos := p_pos st + n; p_phase := p_phase st; p_quote := p_quote st;
     p_dec := p_dec st; p_mult := m; p_left := p_left st; p_zero := p_zero st; p_right := p_right st; p_group := p_group st;
     p_prefixEnd := p_prefixEnd st; p_affix := p_affix st + n; p_suffix := p_suffix st; p_suffixEnd := p_suffixEnd st;
     p_start := p_start st; p_neg := p_neg st |}.
Lemma adv_adv st a b m m' : adv (adv st a m) b m' = adv st (a + b) m'.
Proof. unfold adv. cbn [p_buf p_pos p_phase p_quote p_dec p_mult p_left p_zero p_right p_group p_prefixEnd p_affix p_suffix p_suffixEnd p_start p_neg]. rewrite !Nat.add_assoc. reflexivity. Qed.
Lemma adv_0 st : adv st 0 (p_mult st) = st.
Proof. destruct st. unfold adv. cbn. rewrite !Nat.add_0_r. reflexivity. Qed.
Lemma put_adv st x c y m : p_buf st = x ++ c :: y -> p_affix st = List.length x -> put (set_mult st m) c 1 = adv st 1 m.
Proof. intros B A. unfold put, set_mult, adv. cbn [p_buf p_pos p_phase p_quote p_dec p_mult p_left p_zero p_right p_group p_prefixEnd p_affix p_suffix p_suffixEnd p_start p_neg]. rewrite B, A, write_mid, (Nat.add_1_r (List.length x)). reflexivity. Qed.
Lemma put_adv0 st x c y : p_buf st = x ++ c :: y -> p_affix st = List.length x -> put st c 1 = adv st 1 (p_mult st).
Proof. intros B A. rewrite <- (put_adv st x c y (p_mult st) B A). destruct st. reflexivity. Qed.
Lemma run_affix P end_ : forall t x y st f m, p_buf st = x ++ t ++ y -> p_pos st = List.length x -> p_affix st = List.length x ->
  p_quote st = false -> p_phase st <> Pattern -> end_ = List.length (p_buf st) -> Forall (plain sy) t -> mults (p_mult st) t = Some m ->
  sub_loop sy (List.length t + f) P end_ st = sub_loop sy f P end_ (adv st (List.length t) m).
Proof.
  induction t as [|c t IH]; intros x y st f m B Ps A Q Ph E Pl M.
  - cbn [mults] in M. injection M as <-. cbn [List.length Nat.add]. rewrite adv_0. reflexivity.
  - inversion_clear Pl as [|? ? Hc Ht]. cbn [app] in B. cbn [List.length Nat.add]. rewrite sub_loop_step by (rewrite E, B, Ps, app_length; cbn [List.length]; lia).
    assert (exists m1, sub_step sy P end_ st = Ok (adv st 1 m1) /\ mults m1 t = Some m) as (m1 & S1 & M1).
    { unfold sub_step. rewrite B, Ps, nth_mid. cbn [mults] in M.
      assert (affix_step sy P end_ st c = if N.eqb c (percent sy) then if Z.eqb (p_mult st) 1 then Ok (put (set_mult st 100) c 1) else Err TooManyPercents
              else if N.eqb c (perMille sy) then if Z.eqb (p_mult st) 1 then Ok (put (set_mult st 1000) c 1) else Err TooManyPercents else Ok (put st c 1)) as AS.
      { unfold affix_step. rewrite Q, (plain_number c Hc), (plain_quote c Hc), (plain_sep c Hc). reflexivity. }
      assert (match p_phase st with Pattern => pattern_step sy P st c | _ => affix_step sy P end_ st c end = affix_step sy P end_ st c) as -> by (destruct (p_phase st); [reflexivity|contradiction Ph; reflexivity|reflexivity]).
      rewrite AS. rewrite (put_adv st x c (t ++ y) 100 B A), (put_adv st x c (t ++ y) 1000 B A), (put_adv0 st x c (t ++ y) B A).
      destruct (N.eqb c (percent sy)); [destruct (Z.eqb (p_mult st) 1); [|discriminate M]; eexists; split; [reflexivity|exact M]|].
      destruct (N.eqb c (perMille sy)); [destruct (Z.eqb (p_mult st) 1); [|discriminate M]; eexists; split; [reflexivity|exact M]|].
      eexists; split; [reflexivity|exact M]. }
    rewrite S1. cbn [bind]. rewrite (IH (x ++ [c]) y (adv st 1 m1) f m).
    + rewrite adv_adv. reflexivity.
    + cbn [adv p_buf]. rewrite B, <- app_assoc. reflexivity.
    + cbn [adv p_pos]. rewrite app_length. cbn [List.length]. lia.
    + cbn [adv p_affix]. rewrite app_length. cbn [List.length]. lia.
    + exact Q.
    + exact Ph.
    + exact E.
    + exact Ht.
    + exact M1.
Qed.

(** ** The characters of the number *)
Record cnt := { c_dec : option nat; c_left : nat; c_zero : nat; c_right : nat; c_group : option nat }.
Definition c_next (k : cnt) : option nat := match c_group k, c_dec k with Some g, None => Some (S g) | g, _ => g end.
Definition count1 (k : cnt) (ch : N) : option cnt :=
  if N.eqb ch (hash sy) then
    Some (if 0 <? c_zero k then {| c_dec := c_dec k; c_left := c_left k; c_zero := c_zero k; c_right := S (c_right k); c_group := c_next k |}
          else {| c_dec := c_dec k; c_left := S (c_left k); c_zero := c_zero k; c_right := c_right k; c_group := c_next k |})
  else if N.eqb ch (zeroDigit sy) then
    if 0 <? c_right k then None else Some {| c_dec := c_dec k; c_left := c_left k; c_zero := S (c_zero k); c_right := c_right k; c_group := c_next k |}
  else if N.eqb ch (grouping sy) then Some {| c_dec := c_dec k; c_left := c_left k; c_zero := c_zero k; c_right := c_right k; c_group := Some 0 |}
  else match c_dec k with
       | Some _ => None
       | None => Some {| c_dec := Some (c_left k + c_zero k + c_right k); c_left := c_left k; c_zero := c_zero k; c_right := c_right k; c_group := c_group k |}
       end.
Fixpoint counts (k : cnt) (t : str) : option cnt := match t with [] => Some k | c :: t' => match count1 k c with Some k' => counts k' t' | None => None end end.
Lemma counts_app : forall a k b, counts k (a ++ b) = match counts k a with Some k' => counts k' b | None => None end.
Proof. induction a as [|c a IH]; intros k b; [reflexivity|]. cbn [app counts]. destruct (count1 k c); [apply IH|reflexivity]. Qed.
Definition cnt_of (st : pst) : cnt := {| c_dec := p_dec st; c_left := p_left st; c_zero := p_zero st; c_right := p_right st; c_group := p_group st |}.
Definition upd (st : pst) (n : nat) (k : cnt) : pst :=
  {| p_buf := p_buf st; p_pos := p_pos st + n; p_phase := p_phase st; p_quote := p_quote st;
     p_dec := c_dec k; p_mult := p_mult st; p_left := c_left k; p_zero := c_zero k; p_right := c_right k; p_group := c_group k;
     p_prefixEnd := p_prefixEnd st; p_affix := p_affix st; p_suffix := p_suffix st; p_suffixEnd := p_suffixEnd st;
     p_start := p_start st; p_neg := p_neg st |}.
Lemma set_upd st k : set_counts st (c_dec k) (c_left k) (c_zero k) (c_right k) (c_group k) = upd st 1 k.
Proof. unfold set_counts, upd. rewrite Nat.add_1_r. reflexivity. Qed.
Lemma upd_upd st a b k k' : upd (upd st a k) b k' = upd st (a + b) k'.
Proof. unfold upd. cbn [p_buf p_pos p_phase p_quote p_dec p_mult p_left p_zero p_right p_group p_prefixEnd p_affix p_suffix p_suffixEnd p_start p_neg]. rewrite !Nat.add_assoc. reflexivity. Qed.
Lemma upd_0 st : upd st 0 (cnt_of st) = st.
Proof. destruct st. unfold upd, cnt_of. cbn. rewrite Nat.add_0_r. reflexivity. Qed.
Lemma pattern_step_count st c k : number_char sy c = true -> count1 (cnt_of st) c = Some k -> pattern_step sy true st c = Ok (upd st 1 k).
Proof.
  intros Nc H. unfold pattern_step, count1, cnt_of in *. cbn [c_dec c_left c_zero c_right c_group] in H. unfold number_char in Nc.
  assert (next_group st = c_next (cnt_of st)) as G by reflexivity. unfold cnt_of in G.
  destruct (N.eqb c (hash sy)).
  - injection H as <-. rewrite <- set_upd. destruct (0 <? p_zero st); rewrite <- G; reflexivity.
  - destruct (N.eqb c (zeroDigit sy)).
    + destruct (0 <? p_right st); [discriminate H|]. injection H as <-. rewrite <- set_upd, <- G. reflexivity.
    + destruct (N.eqb c (grouping sy)); [injection H as <-; rewrite <- set_upd; reflexivity|]. cbn [orb] in Nc. rewrite Nc.
      destruct (p_dec st); [discriminate H|]. injection H as <-. rewrite <- set_upd. reflexivity.
Qed.
Lemma run_counts end_ : forall t x y st f k, p_buf st = x ++ t ++ y -> p_pos st = List.length x -> p_phase st = Pattern ->
  end_ = List.length (p_buf st) -> forallb (number_char sy) t = true -> counts (cnt_of st) t = Some k ->
  sub_loop sy (List.length t + f) true end_ st = sub_loop sy f true end_ (upd st (List.length t) k).
Proof.
  induction t as [|c t IH]; intros x y st f k B Ps Ph E Nt C.
  - cbn [counts] in C. injection C as <-. cbn [List.length Nat.add]. rewrite upd_0. reflexivity.
  - cbn [forallb] in Nt. apply andb_prop in Nt. destruct Nt as [Nc Nt]. cbn [counts] in C. destruct (count1 (cnt_of st) c) as [k1|] eqn:C1; [|discriminate C].
    cbn [app] in B. cbn [List.length Nat.add]. rewrite sub_loop_step by (rewrite E, B, Ps, app_length; cbn [List.length]; lia).
    unfold sub_step. rewrite Ph, B, Ps, nth_mid, (pattern_step_count st c k1 Nc C1). cbn [bind]. rewrite (IH (x ++ [c]) y (upd st 1 k1) f k).
    + rewrite upd_upd. reflexivity.
    + cbn [upd p_buf]. rewrite B, <- app_assoc. reflexivity.
    + cbn [upd p_pos]. rewrite app_length. cbn [List.length]. lia.
    + exact Ph.
    + exact E.
    + exact Nt.
    + destruct k1; exact C.
Qed.
Lemma run_counts_neg end_ : forall t x y st f, p_buf st = x ++ t ++ y -> p_pos st = List.length x -> p_phase st = Pattern ->
  end_ = List.length (p_buf st) -> forallb (number_char sy) t = true ->
  sub_loop sy (List.length t + f) false end_ st = sub_loop sy f false end_ (upd st (List.length t) (cnt_of st)).
Proof.
  induction t as [|c t IH]; intros x y st f B Ps Ph E Nt.
  - cbn [List.length Nat.add]. rewrite upd_0. reflexivity.
  - cbn [forallb] in Nt. apply andb_prop in Nt. destruct Nt as [Nc Nt]. cbn [app] in B. cbn [List.length Nat.add].
    rewrite sub_loop_step by (rewrite E, B, Ps, app_length; cbn [List.length]; lia).
    unfold sub_step. rewrite Ph, B, Ps, nth_mid. unfold pattern_step. rewrite Nc. cbn [bind].
    change (set_counts st (p_dec st) (p_left st) (p_zero st) (p_right st) (p_group st)) with (set_counts st (c_dec (cnt_of st)) (c_left (cnt_of st)) (c_zero (cnt_of st)) (c_right (cnt_of st)) (c_group (cnt_of st))).
    rewrite set_upd, (IH (x ++ [c]) y (upd st 1 (cnt_of st)) f).
    + assert (cnt_of (upd st 1 (cnt_of st)) = cnt_of st) as -> by reflexivity. rewrite upd_upd. reflexivity.
    + cbn [upd p_buf]. rewrite B, <- app_assoc. reflexivity.
    + cbn [upd p_pos]. rewrite app_length. cbn [List.length]. lia.
    + exact Ph.
    + exact E.
    + exact Nt.
Qed.

(** ** A sub-pattern *)
Definition zero_cnt : cnt := {| c_dec := None; c_left := 0; c_zero := 0; c_right := 0; c_group := None |}.
Lemma run_sub (P : bool) buf x pre num suf tail k m f :
  buf = x ++ pre ++ num ++ suf ++ tail -> Forall (plain sy) pre -> Forall (plain sy) suf -> num <> [] -> forallb (number_char sy) num = true ->
  (tail = [] \/ P = true /\ exists rest, tail = separator sy :: rest /\ N.eqb (separator sy) QUOTE = false /\ number_char sy (separator sy) = false) ->
  (if P then counts zero_cnt num = Some k else k = zero_cnt) -> mults 1 (pre ++ suf) = Some m ->
  List.length (pre ++ num ++ suf) + 3 <= f ->
  exists st, sub_loop sy f P (List.length buf) (sub_start buf (List.length x)) = Ok st /\
    p_buf st = buf /\ p_prefixEnd st = Some (List.length x + List.length pre) /\ p_suffix st = List.length x + List.length pre + List.length num /\
    p_suffixEnd st = List.length x + List.length pre + List.length num + List.length suf /\ cnt_of st = k /\ p_quote st = false /\ p_mult st = m /\
    match tail with [] => p_neg st = false | _ :: rest => p_neg st = true /\ p_start st = S (List.length x + List.length pre + List.length num + List.length suf) end.
Proof.
  intros B Hp Hs Nn Hn Ht Hk Hm Hf. rewrite !app_length in Hf. set (end_ := List.length buf).
  rewrite mults_app in Hm. destruct (mults 1 pre) as [m1|] eqn:M1; [|discriminate Hm].
  assert (end_ = List.length x + (List.length pre + (List.length num + (List.length suf + List.length tail)))) as Le by (unfold end_; rewrite B, !app_length; reflexivity).
  (* the prefix *)
  replace f with (List.length pre + S (List.length num + (f - List.length pre - 1 - List.length num))) by lia.
  rewrite (run_affix P end_ pre x (num ++ suf ++ tail) (sub_start buf (List.length x)) _ m1); [|exact B|reflexivity|reflexivity|reflexivity|discriminate|reflexivity|exact Hp|exact M1].
  set (st1 := adv (sub_start buf (List.length x)) (List.length pre) m1).
  destruct num as [|c num']; [contradiction Nn; reflexivity|]. set (num := c :: num') in *.
  assert (number_char sy c = true) as Hc by (unfold num in Hn; cbn [forallb] in Hn; apply andb_prop in Hn; exact (proj1 Hn)).
  rewrite sub_loop_step by (cbn [st1 adv p_pos sub_start]; rewrite Le; unfold num; cbn [List.length]; lia).
  assert (sub_step sy P end_ st1 = Ok (to_pattern st1)) as S1.
  { unfold sub_step. assert (p_phase st1 = Prefix) as -> by reflexivity. assert (p_buf st1 = (x ++ pre) ++ c :: (num' ++ suf ++ tail)) as -> by (cbn [st1 adv p_buf sub_start]; rewrite B, <- app_assoc; reflexivity).
    assert (p_pos st1 = List.length (x ++ pre)) as -> by (cbn [st1 adv p_pos sub_start]; rewrite app_length; reflexivity). rewrite nth_mid.
    unfold affix_step. assert (p_quote st1 = false) as -> by reflexivity. rewrite Hc. reflexivity. }
  rewrite S1. cbn [bind].
  (* the number *)
  set (g := f - List.length pre - 1 - List.length num).
  assert (sub_loop sy (List.length num + g) P end_ (to_pattern st1) = sub_loop sy g P end_ (upd (to_pattern st1) (List.length num) k)) as ->.
  { destruct P.
    - apply (run_counts end_ num (x ++ pre) (suf ++ tail)); [cbn [to_pattern st1 adv p_buf sub_start]; rewrite B, <- app_assoc; reflexivity|cbn [to_pattern st1 adv p_pos sub_start]; rewrite app_length; reflexivity|reflexivity|reflexivity|exact Hn|exact Hk].
    - subst k. apply (run_counts_neg end_ num (x ++ pre) (suf ++ tail)); [cbn [to_pattern st1 adv p_buf sub_start]; rewrite B, <- app_assoc; reflexivity|cbn [to_pattern st1 adv p_pos sub_start]; rewrite app_length; reflexivity|reflexivity|reflexivity|exact Hn]. }
  set (st2 := upd (to_pattern st1) (List.length num) k).
  assert (p_pos st2 = List.length x + List.length pre + List.length num) as Pos2 by reflexivity.
  assert (p_buf st2 = buf) as Buf2 by reflexivity.
  assert (cnt_of st2 = k) as Cnt2 by (destruct k; reflexivity).
  destruct (suf ++ tail) as [|c2 r2] eqn:Est.
  { (* nothing follows *)
    apply app_eq_nil in Est. destruct Est as [-> ->]. exists st2. split; [apply sub_loop_end; rewrite Pos2, Le; cbn [List.length]; lia|].
    split; [exact Buf2|]. split; [reflexivity|]. split; [change (p_suffix st2) with (List.length buf); fold end_; rewrite Le; cbn [List.length]; lia|].
    split; [change (p_suffixEnd st2) with (List.length buf); fold end_; rewrite Le; cbn [List.length]; lia|]. split; [exact Cnt2|]. split; [reflexivity|]. split; [|reflexivity].
    cbn [mults] in Hm. injection Hm as <-. reflexivity. }
  (* the suffix *)
  rewrite <- Est in B.
  assert (number_char sy c2 = false) as Hc2.
  { destruct suf as [|c3 suf]; cbn [app] in Est; [destruct Ht as [Ht|(_ & rest & Ht & _ & Hsep)]; rewrite Ht in Est; [discriminate Est|]; injection Est as <- _; exact Hsep|].
    injection Est as <- _. inversion_clear Hs. apply plain_number. assumption. }
  assert (1 <= List.length suf + List.length tail) as L1 by (apply (f_equal (@List.length N)) in Est; rewrite app_length in Est; cbn [List.length] in Est; lia).
  replace g with (S (List.length suf + (g - 1 - List.length suf))) by (unfold g; lia).
  rewrite sub_loop_step by (rewrite Pos2, Le; lia).
  assert (sub_step sy P end_ st2 = Ok (to_suffix st2)) as S2.
  { unfold sub_step. assert (p_phase st2 = Pattern) as -> by reflexivity. rewrite Buf2, Pos2, B. assert (x ++ pre ++ num ++ suf ++ tail = (x ++ pre ++ num) ++ c2 :: r2) as -> by (rewrite Est, <- !app_assoc; reflexivity).
    replace (List.length x + List.length pre + List.length num) with (List.length (x ++ pre ++ num)) by (rewrite !app_length; lia). rewrite nth_mid.
    unfold pattern_step. destruct P; [|rewrite Hc2; reflexivity]. unfold number_char in Hc2. rewrite !orb_false_iff in Hc2. destruct Hc2 as [[[-> ->] ->] ->]. reflexivity. }
  rewrite S2. cbn [bind].
  rewrite (run_affix P end_ suf (x ++ pre ++ num) tail (to_suffix st2) _ m); [| | | |reflexivity|discriminate|reflexivity|exact Hs|exact Hm].
  2: { change (p_buf (to_suffix st2)) with buf. rewrite B, <- !app_assoc. reflexivity. }
  2: { change (p_pos (to_suffix st2)) with (p_pos st2). rewrite Pos2, !app_length. lia. }
  2: { change (p_affix (to_suffix st2)) with (p_pos st2). rewrite Pos2, !app_length. lia. }
  set (st3 := adv (to_suffix st2) (List.length suf) m).
  assert (p_pos st3 = List.length x + List.length pre + List.length num + List.length suf) as Pos3 by reflexivity.
  assert (p_suffix st3 = List.length x + List.length pre + List.length num) as Suf3 by reflexivity.
  assert (p_affix st3 = List.length x + List.length pre + List.length num + List.length suf) as Aff3 by reflexivity.
  assert (cnt_of st3 = k) as Cnt3 by (destruct k; reflexivity).
  destruct Ht as [->|(EP & rest & -> & Q & Hsep)].
  - exists st3. split; [apply sub_loop_end; rewrite Pos3, Le; cbn [List.length]; lia|]. split; [reflexivity|]. split; [reflexivity|]. split; [exact Suf3|].
    split; [change (p_suffixEnd st3) with (List.length buf); fold end_; rewrite Le; cbn [List.length]; lia|]. split; [exact Cnt3|]. repeat split.
  - replace (g - 1 - List.length suf) with (S (g - 2 - List.length suf)) by (unfold g; lia). rewrite sub_loop_step by (rewrite Pos3, Le; cbn [List.length]; lia).
    assert (sub_step sy P end_ st3 = Ok (to_negative st3 end_)) as S3.
    { unfold sub_step. assert (p_phase st3 = Suffix) as Ph3 by reflexivity. rewrite Ph3. change (p_buf st3) with buf. rewrite Pos3, B.
      assert (x ++ pre ++ num ++ suf ++ separator sy :: rest = (x ++ pre ++ num ++ suf) ++ separator sy :: rest) as -> by (rewrite <- !app_assoc; reflexivity).
      replace (List.length x + List.length pre + List.length num + List.length suf) with (List.length (x ++ pre ++ num ++ suf)) by (rewrite !app_length; lia). rewrite nth_mid.
      unfold affix_step. assert (p_quote st3 = false) as -> by reflexivity. rewrite Hsep, Q, N.eqb_refl, Ph3, EP. reflexivity. }
    rewrite S3. cbn [bind]. exists (to_negative st3 end_). split; [apply sub_loop_end; apply Nat.le_refl|]. split; [reflexivity|]. split; [reflexivity|]. split; [exact Suf3|].
    split; [exact Aff3|]. split; [exact Cnt3|]. split; [reflexivity|]. split; [reflexivity|]. split; [reflexivity|]. change (p_start (to_negative st3 end_)) with (S (p_pos st3)). rewrite Pos3. reflexivity.
Qed.

(** ** The counters of a number *)
Section Good.
Hypothesis good : good_symbols sy.
Lemma good_eqs : N.eqb (zeroDigit sy) (hash sy) = false /\ N.eqb (grouping sy) (hash sy) = false /\ N.eqb (grouping sy) (zeroDigit sy) = false /\
  N.eqb (decimalSep sy) (hash sy) = false /\ N.eqb (decimalSep sy) (zeroDigit sy) = false /\ N.eqb (decimalSep sy) (grouping sy) = false /\
  N.eqb (separator sy) QUOTE = false /\ number_char sy (separator sy) = false /\ percent sy <> perMille sy.
Proof.
  unfold good_symbols, special in good. repeat match goal with H : NoDup (_ :: _) |- _ => inversion_clear H end.
  cbn [In] in *. unfold number_char. rewrite !orb_false_iff. repeat split; try match goal with |- N.eqb _ _ = false => apply N.eqb_neq end; intros E; intuition congruence.
Qed.
Fixpoint gfold (g : option nat) (t : str) : option nat :=
  match t with [] => g | c :: t' => gfold (if N.eqb c (grouping sy) then Some 0 else match g with Some n => Some (S n) | None => None end) t' end.
Lemma gfold_app : forall a g b, gfold g (a ++ b) = gfold (gfold g a) b.
Proof. induction a as [|c a IH]; intros g b; [reflexivity|]. cbn [app gfold]. apply IH. Qed.
Lemma gfold_none : forall t, ~ In (grouping sy) t -> gfold None t = None.
Proof. induction t as [|c t IH]; intros H; [reflexivity|]. cbn [gfold]. destruct (N.eqb_spec c (grouping sy)) as [E|_]; [contradiction H; left; exact E|]. apply IH. intros X. apply H. right. exact X. Qed.
Lemma gfold_some : forall t n, ~ In (grouping sy) t -> gfold (Some n) t = Some (n + List.length t).
Proof.
  induction t as [|c t IH]; intros n H; [cbn [gfold List.length]; rewrite Nat.add_0_r; reflexivity|]. cbn [gfold List.length]. destruct (N.eqb_spec c (grouping sy)) as [E|_]; [contradiction H; left; exact E|].
  rewrite IH by (intros X; apply H; right; exact X). f_equal. lia.
Qed.
Lemma counts_ints : forall ints a b a0 b0 g0, Forall (fun c => In c [hash sy; zeroDigit sy; grouping sy]) ints ->
  filter (fun c => negb (N.eqb c (grouping sy))) ints = repeat (hash sy) a ++ repeat (zeroDigit sy) b -> (b0 = 0 \/ a = 0) ->
  counts {| c_dec := None; c_left := a0; c_zero := b0; c_right := 0; c_group := g0 |} ints =
    Some {| c_dec := None; c_left := a0 + a; c_zero := b0 + b; c_right := 0; c_group := gfold g0 ints |}.
Proof.
  destruct good_eqs as (E1 & E2 & E3 & E4 & E5 & E6 & _).
  induction ints as [|c ints IH]; intros a b a0 b0 g0 F E H.
  - cbn [filter] in E. symmetry in E. apply app_eq_nil in E. destruct E as [Ea Eb]. destruct a; [|discriminate Ea]. destruct b; [|discriminate Eb]. cbn [counts gfold]. rewrite !Nat.add_0_r. reflexivity.
  - inversion_clear F as [|? ? Hc Hi]. cbn [counts gfold filter] in *. unfold count1. cbn [c_dec c_left c_zero c_right c_group c_next]. destruct Hc as [<-|[<-|[<-|[]]]].
    + rewrite N.eqb_refl. rewrite (N.eqb_sym (hash sy) (grouping sy)), E2 in E |- *. cbn [negb] in E.
      destruct a as [|a]; [destruct b as [|b]; cbn [repeat app] in E; [discriminate E|injection E as E _; rewrite E, N.eqb_refl in E1; discriminate E1]|].
      cbn [repeat app] in E. injection E as E. destruct H as [->|H]; [|discriminate H]. cbn [Nat.ltb Nat.leb].
      replace (match g0 with Some g => Some (S g) | None => g0 end) with (match g0 with Some n => Some (S n) | None => None end) by (destruct g0; reflexivity).
      rewrite (IH a b (S a0) 0 _ Hi E) by (left; reflexivity). rewrite (Nat.add_succ_r a0 a). reflexivity.
    + rewrite E1, N.eqb_refl. rewrite (N.eqb_sym (zeroDigit sy) (grouping sy)), E3 in E |- *. cbn [negb] in E. cbn [Nat.ltb Nat.leb].
      destruct a as [|a]; [|cbn [repeat app] in E; injection E as E _; rewrite E, N.eqb_refl in E1; discriminate E1].
      destruct b as [|b]; [discriminate E|]. cbn [repeat app] in E. injection E as E.
      replace (match g0 with Some g => Some (S g) | None => g0 end) with (match g0 with Some n => Some (S n) | None => None end) by (destruct g0; reflexivity).
      rewrite (IH 0 b a0 (S b0) _ Hi E) by (right; reflexivity). rewrite (Nat.add_succ_r b0 b). reflexivity.
    + rewrite E2, E3, N.eqb_refl in *. cbn [negb] in E. apply IH; assumption.
Qed.
Lemma counts_zeros dec a b g : forall c, counts {| c_dec := Some dec; c_left := a; c_zero := b; c_right := 0; c_group := g |} (repeat (zeroDigit sy) c) =
  Some {| c_dec := Some dec; c_left := a; c_zero := b + c; c_right := 0; c_group := g |}.
Proof.
  destruct good_eqs as (E1 & _). intros c. revert b. induction c as [|c IH]; intros b; cbn [repeat counts]; [rewrite Nat.add_0_r; reflexivity|].
  unfold count1. cbn [c_dec c_left c_zero c_right c_group]. rewrite E1, N.eqb_refl. cbn [Nat.ltb Nat.leb]. replace (c_next _) with g by (destruct g; reflexivity).
  rewrite IH. rewrite Nat.add_succ_r. reflexivity.
Qed.
Lemma counts_hashes dec b g : forall d a r, counts {| c_dec := Some dec; c_left := a; c_zero := b; c_right := r; c_group := g |} (repeat (hash sy) d) =
  Some {| c_dec := Some dec; c_left := (if b =? 0 then a + d else a); c_zero := b; c_right := (if b =? 0 then r else r + d); c_group := g |}.
Proof.
  induction d as [|d IH]; intros a r; cbn [repeat counts]; [destruct (b =? 0); rewrite Nat.add_0_r; reflexivity|].
  unfold count1. cbn [c_dec c_left c_zero c_right c_group]. rewrite N.eqb_refl. replace (c_next _) with g by (destruct g; reflexivity).
  destruct b as [|b]; cbn [Nat.ltb Nat.leb]; rewrite IH; cbn [Nat.eqb]; rewrite Nat.add_succ_r; reflexivity.
Qed.
Definition number_counts (point : bool) (a b c d : nat) (g : option nat) : cnt :=
  if point then {| c_dec := Some (a + b); c_left := (if b + c =? 0 then a + d else a); c_zero := b + c; c_right := (if b + c =? 0 then 0 else d); c_group := g |}
  else {| c_dec := None; c_left := a; c_zero := b; c_right := 0; c_group := g |}.
Lemma counts_number ints point a b c d g : int_part sy ints a b g ->
  counts zero_cnt (ints ++ frac_part sy point c d) = Some (number_counts point a b c d (match g with 0 => None | _ => Some g end)).
Proof.
  destruct good_eqs as (E1 & E2 & E3 & E4 & E5 & E6 & _). intros (F & E & G). rewrite counts_app. unfold zero_cnt. rewrite (counts_ints ints a b 0 0 None F E) by (left; reflexivity). cbn [Nat.add].
  assert (gfold None ints = match g with 0 => None | _ => Some g end) as ->.
  { destruct G as [[-> G]|(Hg & x & y & -> & Ny & Ly)]; [apply gfold_none; exact G|]. rewrite gfold_app. cbn [gfold]. rewrite N.eqb_refl, gfold_some by exact Ny. cbn [Nat.add]. rewrite Ly. destruct g; [lia|reflexivity]. }
  unfold frac_part, number_counts. destruct point; [|reflexivity]. cbn [counts]. unfold count1. cbn [c_dec c_left c_zero c_right c_group]. rewrite E4, E5, E6, Nat.add_0_r.
  rewrite counts_app, counts_zeros, counts_hashes. reflexivity.
Qed.
Lemma number_chars ints point a b c d g : int_part sy ints a b g -> forallb (number_char sy) (ints ++ frac_part sy point c d) = true.
Proof.
  intros (F & _). rewrite forallb_app. apply andb_true_intro. split.
  - apply forallb_forall. intros x Hx. rewrite Forall_forall in F. specialize (F x Hx). unfold number_char. destruct F as [<-|[<-|[<-|[]]]]; rewrite N.eqb_refl, ?orb_true_r; reflexivity.
  - unfold frac_part. destruct point; [|reflexivity]. cbn [forallb]. rewrite forallb_app. unfold number_char at 1. rewrite N.eqb_refl, orb_true_r. cbn [andb].
    apply andb_true_intro. split; apply forallb_forall; intros x Hx; apply repeat_spec in Hx; subst x; unfold number_char; rewrite N.eqb_refl, ?orb_true_r; reflexivity.
Qed.

(** ** parse_pattern *)
Definition span_of (start size : nat) : part := match size with 0 => None | _ => Some (start, size) end.
Lemma prefix_part_span start n st : p_prefixEnd st = Some (start + n) -> prefix_part start st = Ok (span_of start n).
Proof.
  intros E. unfold prefix_part. rewrite E. f_equal. destruct (Nat.eqb_spec start (start + n)) as [H|H]; destruct n as [|n]; cbn [span_of]; try reflexivity; try lia.
  do 2 f_equal. lia.
Qed.
Lemma suffix_part_span st s n : p_suffix st = s -> p_suffixEnd st = s + n -> suffix_part st = span_of s n.
Proof.
  intros <- E. unfold suffix_part. rewrite E. destruct (Nat.eqb_spec (p_suffix st) (p_suffix st + n)) as [H|H]; destruct n as [|n]; cbn [span_of]; try reflexivity; try lia.
  do 2 f_equal. lia.
Qed.
(** A negative sub-pattern: its prefix, number and suffix. *)
Definition negative_ok (neg : option (str * str * str)) : Prop :=
  match neg with
  | None => True
  | Some (np, nn, ns) => Forall (plain sy) np /\ Forall (plain sy) ns /\ nn <> [] /\ forallb (number_char sy) nn = true /\ scale sy (np ++ ns) <> None
  end.
Definition neg_text (neg : option (str * str * str)) : str := match neg with None => [] | Some (np, nn, ns) => separator sy :: np ++ nn ++ ns end.

Lemma parse_pattern_spec pre ints point a b c d g suf neg m :
  Forall (plain sy) pre -> Forall (plain sy) suf -> int_part sy ints a b g -> ints ++ frac_part sy point c d <> [] -> (point = false -> c = 0 /\ d = 0) ->
  scale sy (pre ++ suf) = Some m -> negative_ok neg ->
  let num := ints ++ frac_part sy point c d in
  let pattern := pre ++ num ++ suf ++ neg_text neg in
  let nstart := S (List.length pre + List.length num + List.length suf) in
  parse_pattern sy pattern = Ok ({|
    i_prefix := span_of 0 (List.length pre); i_suffix := span_of (List.length pre + List.length num) (List.length suf);
    i_nprefix := match neg with None => None | Some (np, nn, ns) => span_of nstart (List.length np) end;
    i_nsuffix := match neg with None => None | Some (np, nn, ns) => span_of (nstart + List.length np + List.length nn) (List.length ns) end;
    i_minInt := min_int point a b c; i_minFrac := min_frac point a b c d; i_maxFrac := c + d; i_group := g; i_show := show_point point a b c d; i_mult := m |}, pattern).
Proof.
  intros Hp Hs Hi Nn Hpt Hm Hneg num pattern nstart. destruct good_eqs as (_ & _ & _ & _ & _ & _ & Eq1 & Eq2 & NE).
  unfold parse_pattern, parse_sub. assert (2 * List.length pattern + 2 >= List.length (pre ++ num ++ suf) + 3) as Hf.
  { unfold pattern. rewrite !app_length. fold num in Nn. destruct num; [contradiction Nn; reflexivity|]. cbn [List.length]. lia. }
  destruct (run_sub true pattern [] pre num suf (neg_text neg) (number_counts point a b c d (match g with 0 => None | _ => Some g end)) m (2 * List.length pattern + 2)) as
    (st & R & Bf & Pe & Sf & Se & Cn & Qu & Mu & Tl).
  { reflexivity. } { exact Hp. } { exact Hs. } { exact Nn. } { exact (number_chars ints point a b c d g Hi). }
  { destruct neg as [[[np nn] ns]|]; [right; split; [reflexivity|]; eexists; split; [reflexivity|]; split; assumption|left; reflexivity]. }
  { exact (counts_number ints point a b c d g Hi). } { rewrite mults_scale by exact NE. exact Hm. } { lia. }
  cbn [List.length Nat.add] in Pe, Sf, Se, Tl. change (List.length (@nil N)) with 0 in R. rewrite R. cbn [bind].
  pose proof (f_equal c_dec Cn) as Cd. pose proof (f_equal c_left Cn) as Cl. pose proof (f_equal c_zero Cn) as Cz. pose proof (f_equal c_right Cn) as Cr. pose proof (f_equal c_group Cn) as Cg.
  cbn [cnt_of c_dec c_left c_zero c_right c_group] in Cd, Cl, Cz, Cr, Cg.
  assert (p_group st = match g with 0 => None | _ => Some g end) as Cg' by (rewrite Cg; unfold number_counts; destruct point; reflexivity).
  (* the digits *)
  assert (exists l z r, settle st = (l, z, r) /\ bad_digits st l z r = false /\
            match p_dec st with Some d => d | None => l + z + r end - l = min_int point a b c /\
            match p_dec st with Some d => l + z - d | None => 0 end = min_frac point a b c d /\
            match p_dec st with Some d => l + z + r - d | None => 0 end = c + d /\
            match p_dec st with Some d => (d =? 0) || (d =? l + z + r) | None => false end = show_point point a b c d) as (l & z & r & Es & Eb & I1 & I2 & I3 & I4).
  { unfold settle, bad_digits. rewrite Cd, Cl, Cz, Cr, Cg', Qu. unfold number_counts, min_int, min_frac, show_point. clear - Hpt.
    assert (forall w : bool, w || match match g with 0 => None | _ => Some g end with Some 0 => true | _ => false end || false = w) as G by (intros w; destruct g; destruct w; reflexivity).
    destruct point; cbn [c_dec c_left c_zero c_right c_group andb].
    - destruct (b + c) as [|bc] eqn:Ebc; cbn [Nat.eqb].
      + assert (b = 0) as -> by lia. assert (c = 0) as -> by lia. rewrite Nat.add_0_r. cbn [Nat.eqb andb Nat.add]. destruct (a + d) as [|ad] eqn:Ead.
        * assert (a = 0) as -> by lia. assert (d = 0) as -> by lia. exists 0, 0, 0. rewrite G. repeat split.
        * destruct a as [|a]; cbn [Nat.eqb andb].
          { assert (d = S ad) as -> by lia. exists 0, 1, ad. rewrite G. cbn. rewrite !Nat.sub_0_r. repeat split. }
          { exists (S a - 1), 1, (S ad - S a). rewrite G. split; [reflexivity|]. split; [apply orb_false_intro; apply Nat.ltb_ge; lia|]. split; [cbn [Nat.ltb Nat.leb]; lia|]. split; [lia|]. split; [lia|].
            replace (S a - 1 + 1 + (S ad - S a)) with (S (a + d)) by lia. cbn [Nat.eqb orb]. rewrite orb_false_r. apply Bool.eq_iff_eq_true. rewrite !Nat.eqb_eq. lia. }
      + exists a, (S bc), d. rewrite G. split; [reflexivity|]. split; [apply orb_false_intro; apply Nat.ltb_ge; lia|].
        assert ((b =? 0) && (c =? 0) = false) as Ez by (destruct b; [destruct c; [lia|reflexivity]|reflexivity]).
        assert ((a =? 0) && (b =? 0) && (c =? 0) = false) as Ez2 by (rewrite <- andb_assoc, Ez; apply andb_false_r).
        rewrite Ez, Ez2. cbn [andb]. split; [lia|]. split; [lia|]. split; [lia|].
        destruct (Nat.eqb_spec (a + b) 0) as [X|X]; [rewrite orb_true_r; reflexivity|]. cbn [orb]. rewrite orb_false_r. apply Bool.eq_iff_eq_true. rewrite !Nat.eqb_eq. lia.
    - exists a, b, 0. rewrite G. split; [destruct b; [destruct a; reflexivity|reflexivity]|]. split; [reflexivity|]. split; [lia|]. destruct (Hpt eq_refl) as [-> ->]. repeat split. }
  rewrite Es, Eb. cbn [bind]. rewrite (prefix_part_span 0 (List.length pre) st Pe). cbn [bind].
  rewrite (suffix_part_span st _ (List.length suf) Sf Se). rewrite I1, I2, I3, I4, Cg', Mu.
  assert (match match g with 0 => None | _ => Some g end with Some g => g | None => 0 end = g) as -> by (destruct g; reflexivity).
  destruct neg as [[[np nn] ns]|]; cbn [neg_text] in Tl.
  - destruct Tl as [-> ->]. rewrite Bf. cbn [negative_ok] in Hneg. destruct Hneg as (N1 & N2 & N3 & N4 & N5).
    destruct (scale sy (np ++ ns)) as [m2|] eqn:Sc; [|contradiction N5; reflexivity].
    set (x := pre ++ num ++ suf ++ [separator sy]).
    assert (List.length x = nstart) as Lx by (unfold x, nstart; rewrite !app_length; cbn [List.length]; lia).
    assert (pattern = x ++ np ++ nn ++ ns ++ []) as Epat by (unfold pattern, x; cbn [neg_text]; rewrite <- !app_assoc, app_nil_r; reflexivity).
    destruct (run_sub false pattern x np nn ns [] zero_cnt m2 (2 * List.length pattern + 2)) as (st2 & R2 & Bf2 & Pe2 & Sf2 & Se2 & Cn2 & Qu2 & _ & _).
    { exact Epat. } { exact N1. } { exact N2. } { exact N3. } { exact N4. } { left. reflexivity. } { reflexivity. } { rewrite mults_scale by exact NE. exact Sc. }
    { rewrite Epat, !app_length, Lx. unfold nstart. destruct nn; [contradiction N3; reflexivity|]. cbn [List.length]. lia. }
    rewrite Lx in R2, Pe2, Sf2, Se2. fold nstart. rewrite R2. cbn [bind].
    assert (settle st2 = (0, 0, 0) /\ bad_digits st2 0 0 0 = false) as [Es2 Eb2].
    { unfold settle, bad_digits. pose proof (f_equal c_dec Cn2) as D1. pose proof (f_equal c_left Cn2) as D2. pose proof (f_equal c_zero Cn2) as D3. pose proof (f_equal c_right Cn2) as D4. pose proof (f_equal c_group Cn2) as D5.
      cbn [cnt_of c_dec c_left c_zero c_right c_group zero_cnt] in D1, D2, D3, D4, D5. rewrite D1, D2, D3, D4, D5, Qu2. split; reflexivity. }
    rewrite Es2, Eb2. cbn [bind]. rewrite (prefix_part_span nstart (List.length np) st2 Pe2). cbn [bind].
    rewrite (suffix_part_span st2 _ (List.length ns) Sf2 Se2), Bf2. reflexivity.
  - rewrite Tl, Bf. reflexivity.
Qed.
End Good.
End Parse.
