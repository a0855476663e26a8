(** * The UTF-8 codec of Python 2 ([unicode.encode('utf-8')], [str.decode('utf-8')]).

    Not code of /repo: part of the Python runtime the modelled functions call.
    Like Python 2, the codec encodes and decodes surrogate code points as
    three bytes. *)
From Coq Require Import NArith ZArith List Bool Lia.
From Verif Require Import PyStr.
Import ListNotations.
Open Scope N_scope.

Definition utf8_1 (c : N) : list N :=
  if c <? 128 then [c]
  else if c <? 2048 then [192 + c / 64; 128 + c mod 64]
  else if c <? 65536 then [224 + c / 4096; 128 + (c / 64) mod 64; 128 + c mod 64]
  else [240 + c / 262144; 128 + (c / 4096) mod 64; 128 + (c / 64) mod 64; 128 + c mod 64].

Definition utf8_encode (s : str) : str := flat_map utf8_1 s.

Definition is_cont (b : N) : bool := (128 <=? b) && (b <? 192).

Fixpoint utf8_decode (s : str) : option str :=
  match s with
  | [] => Some []
  | b0 :: s0 =>
    if b0 <? 128 then option_map (cons b0) (utf8_decode s0)
    else if b0 <? 194 then None
    else match s0 with
    | [] => None
    | b1 :: s1 =>
      if negb (is_cont b1) then None
      else if b0 <? 224 then option_map (cons ((b0 - 192) * 64 + (b1 - 128))) (utf8_decode s1)
      else match s1 with
      | [] => None
      | b2 :: s2 =>
        if negb (is_cont b2) then None
        else if b0 <? 240 then
          let c := (b0 - 224) * 4096 + (b1 - 128) * 64 + (b2 - 128) in
          if c <? 2048 then None else option_map (cons c) (utf8_decode s2)
        else match s2 with
        | [] => None
        | b3 :: s3 =>
          if negb (is_cont b3) then None
          else
            let c := (b0 - 240) * 262144 + (b1 - 128) * 4096 + (b2 - 128) * 64 + (b3 - 128) in
            if (c <? 65536) || (1114112 <=? c) then None
            else option_map (cons c) (utf8_decode s3)
        end
      end
    end
  end.

Lemma utf8_1_bytes : forall c, c < 1114112 -> Forall (fun b => b < 256) (utf8_1 c).
Proof.
  intros c H. unfold utf8_1.
  assert (c mod 64 < 64) by (apply N.mod_lt; lia).
  assert ((c / 64) mod 64 < 64) by (apply N.mod_lt; lia).
  assert ((c / 4096) mod 64 < 64) by (apply N.mod_lt; lia).
  destruct (N.ltb_spec c 128). { repeat constructor; lia. }
  destruct (N.ltb_spec c 2048).
  { assert (c / 64 < 32) by (apply N.div_lt_upper_bound; lia). repeat constructor; lia. }
  destruct (N.ltb_spec c 65536).
  { assert (c / 4096 < 16) by (apply N.div_lt_upper_bound; lia). repeat constructor; lia. }
  assert (c / 262144 < 5) by (apply N.div_lt_upper_bound; lia). repeat constructor; lia.
Qed.

Lemma is_cont_128 : forall x, x < 64 -> is_cont (128 + x) = true.
Proof. intros; unfold is_cont. rewrite andb_true_iff; split; [apply N.leb_le|apply N.ltb_lt]; lia. Qed.

Ltac Ndec := repeat match goal with
  | |- context[?a <? ?b] =>
      first [ replace (a <? b) with true by (symmetry; apply N.ltb_lt; lia)
            | replace (a <? b) with false by (symmetry; apply N.ltb_ge; lia) ]
  | |- context[?a <=? ?b] =>
      first [ replace (a <=? b) with true by (symmetry; apply N.leb_le; lia)
            | replace (a <=? b) with false by (symmetry; apply N.leb_gt; lia) ]
  end.

Lemma utf8_decode_1 : forall c s, c < 1114112 ->
  utf8_decode (utf8_1 c ++ s) = option_map (cons c) (utf8_decode s).
Proof.
  intros c s H. unfold utf8_1.
  assert (A0: c mod 64 < 64) by (apply N.mod_lt; lia).
  assert (A1: (c / 64) mod 64 < 64) by (apply N.mod_lt; lia).
  assert (A2: (c / 4096) mod 64 < 64) by (apply N.mod_lt; lia).
  assert (E0: c = 64 * (c / 64) + c mod 64) by (apply N.div_mod; lia).
  assert (E1: c / 64 = 64 * (c / 64 / 64) + (c / 64) mod 64) by (apply N.div_mod; lia).
  rewrite N.div_div in E1 by lia. change (64 * 64) with 4096 in E1.
  assert (E2: c / 4096 = 64 * (c / 4096 / 64) + (c / 4096) mod 64) by (apply N.div_mod; lia).
  rewrite N.div_div in E2 by lia. change (4096 * 64) with 262144 in E2.
  remember (c / 64) as q1. remember (c / 4096) as q2. remember (c / 262144) as q3.
  remember (c mod 64) as r0. remember (q1 mod 64) as r1. remember (q2 mod 64) as r2.
  clear Heqq1 Heqq2 Heqq3 Heqr0 Heqr1 Heqr2.
  destruct (N.ltb_spec c 128).
  { cbn [app utf8_decode]. Ndec. reflexivity. }
  destruct (N.ltb_spec c 2048).
  { cbn [app utf8_decode].
    rewrite (is_cont_128 _ A0). cbn [negb]. Ndec.
    do 2 f_equal. lia. }
  destruct (N.ltb_spec c 65536).
  { cbn [app utf8_decode].
    rewrite (is_cont_128 _ A0), (is_cont_128 _ A1). cbn [negb]. Ndec.
    do 2 f_equal. lia. }
  cbn [app utf8_decode].
  rewrite (is_cont_128 _ A0), (is_cont_128 _ A1), (is_cont_128 _ A2). cbn [negb]. Ndec.
  cbn [orb].
  do 2 f_equal. lia.
Qed.

Theorem utf8_roundtrip : forall s, Forall (fun c => c < 1114112) s -> utf8_decode (utf8_encode s) = Some s.
Proof.
  induction s as [|c s IH]; intro H; [reflexivity|].
  inversion H; subst. unfold utf8_encode; cbn [flat_map].
  rewrite utf8_decode_1 by assumption.
  unfold utf8_encode in IH. now rewrite IH.
Qed.
