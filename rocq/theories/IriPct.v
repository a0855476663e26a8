(** * Proofs about percent-encoding *)
From Coq Require Import NArith ZArith String List Bool Lia Arith.
From Verif Require Import PyStr PyErr Regex Utf8 IriModel IriSpec.
Import ListNotations.
Open Scope N_scope.

Lemma hexval_hexdigit : forall n, n < 16 -> hexval (hexdigit n) = Some n.
Proof.
  intros n H. unfold hexdigit, hexval, is_digit.
  destruct (N.ltb_spec n 10).
  - Ndec. cbn [andb]. f_equal. lia.
  - Ndec. cbn [andb]. f_equal. lia.
Qed.

Lemma div16_lt : forall n, n < 256 -> n / 16 < 16.
Proof. intros; apply N.div_lt_upper_bound; lia. Qed.
Lemma mod16_lt : forall n, n mod 16 < 16.
Proof. intros; apply N.mod_lt; lia. Qed.

Lemma int16_pct2 : forall n, n < 256 -> int16 (hexdigit (n / 16)) (hexdigit (n mod 16)) = Some (Z.of_N n).
Proof.
  intros n H. unfold int16. rewrite !hexval_hexdigit by auto using div16_lt, mod16_lt.
  do 2 f_equal. rewrite (N.div_mod n 16) at 3 by lia. lia.
Qed.

Lemma hexdigit_ne_pct : forall n, hexdigit n <> cPCT.
Proof. intro n; unfold hexdigit. destruct (N.ltb_spec n 10); lia. Qed.

(** ** Decoding, character by character *)
Lemma dec_nil : forall d, pct_decode_raw d [] = [].
Proof. reflexivity. Qed.
Lemma dec_char : forall d c s, c <> cPCT -> pct_decode_raw d (c :: s) = c :: pct_decode_raw d s.
Proof.
  intros d c s H. unfold pct_decode_raw. cbn [split1].
  destruct (N.eqb_spec c cPCT); [congruence|].
  destruct (split1 cPCT s) eqn:E; [now apply split1_nonempty in E|]. reflexivity.
Qed.
Lemma dec_esc : forall d a b s, a <> cPCT -> b <> cPCT ->
  pct_decode_raw d (cPCT :: a :: b :: s) =
  match int16 a b with
  | Some z => if (z <? 0)%Z then cPCT :: a :: b :: pct_decode_raw d s
              else match d with
                   | None => Z.to_N z :: pct_decode_raw d s
                   | Some l => if mem (Z.to_N z) l then Z.to_N z :: pct_decode_raw d s
                               else cPCT :: a :: b :: pct_decode_raw d s
                   end
  | None => cPCT :: a :: b :: pct_decode_raw d s
  end.
Proof.
  intros d a b s Ha Hb. unfold pct_decode_raw. cbn [split1]. rewrite N.eqb_refl.
  destruct (N.eqb_spec a cPCT); [congruence|]. destruct (N.eqb_spec b cPCT); [congruence|].
  destruct (split1 cPCT s) as [|w ws] eqn:E; [now apply split1_nonempty in E|].
  cbn [flat_map app dec_item].
  destruct (int16 a b) as [z|]; [|reflexivity].
  destruct (z <? 0)%Z; [reflexivity|].
  destruct d as [l|]; [|reflexivity].
  destruct (mem (Z.to_N z) l); reflexivity.
Qed.

Lemma dec_pct2 : forall n s, n < 256 -> pct_decode_raw None (pct2 n ++ s) = n :: pct_decode_raw None s.
Proof.
  intros n s H. unfold pct2. cbn [app]. rewrite dec_esc by apply hexdigit_ne_pct.
  rewrite int16_pct2 by assumption.
  destruct (Z.ltb_spec (Z.of_N n) 0); [lia|]. now rewrite N2Z.id.
Qed.

Lemma dec_pct2s : forall l s, Forall (fun b => b < 256) l ->
  pct_decode_raw None (flat_map pct2 l ++ s) = l ++ pct_decode_raw None s.
Proof.
  induction l as [|n l IH]; intros s H; [reflexivity|]. inversion H; subst.
  cbn [flat_map]. rewrite <- app_assoc, dec_pct2 by assumption. rewrite IH by assumption. reflexivity.
Qed.

Lemma unreserved_ne_pct : forall c, unreserved c = true -> c <> cPCT.
Proof. intros c H ->. discriminate. Qed.

Lemma unreserved_lt : forall c, unreserved c = true -> c < 128.
Proof.
  intros c H. unfold unreserved, is_digit, is_alpha, is_upper, is_lower in H.
  rewrite !orb_true_iff, !andb_true_iff, !N.leb_le in H.
  destruct H as [[H|[H|H]]|H]; try lia. apply mem_In in H.
  change (lit "-._~") with [45; 46; 95; 126] in H. simpl in H. intuition lia.
Qed.

(** One encoded character decodes to its bytes. *)
Lemma dec_enc1 : forall uni c s, (uni = true -> c < 1114112) -> (uni = false -> c < 256) ->
  pct_decode_raw None (fst (enc1 uni true false RESERVED c false) ++ s)
  = (if uni then utf8_1 c else [c]) ++ pct_decode_raw None s.
Proof.
  intros uni c s Hu Hb. unfold enc1. cbn [andb].
  destruct (unreserved c) eqn:Eu.
  - pose proof (unreserved_lt c Eu). cbn [fst app]. rewrite dec_char by now apply unreserved_ne_pct.
    destruct uni; unfold utf8_1; Ndec; reflexivity.
  - destruct (N.ltb_spec c 128).
    + replace (fst (if mem c RESERVED then (pct2 c, false) else (pct2 c, false))) with (pct2 c) by (destruct (mem c RESERVED); reflexivity).
      rewrite dec_pct2 by lia. destruct uni; unfold utf8_1; Ndec; reflexivity.
    + destruct uni; cbn [fst].
      * rewrite dec_pct2s by auto using utf8_1_bytes. reflexivity.
      * rewrite dec_pct2 by auto. reflexivity.
Qed.

(** ** Byte strings *)
Lemma pct_bytes : forall b, Forall (fun c => c < 256) b ->
  pct_decode_raw None (flat_map (fun c => fst (enc1 false true false RESERVED c false)) b) = b.
Proof.
  induction b as [|c b IH]; intro H; [reflexivity|]. inversion H; subst.
  cbn [flat_map]. rewrite dec_enc1 by (auto; discriminate). rewrite IH by assumption. reflexivity.
Qed.

(** ** Unicode strings *)
Lemma chars_scalar : forall u, Forall scalar u -> chars_u u = Ok (map (fun c => (c, false)) u).
Proof.
  induction u as [|c u IH]; intro H; [reflexivity|]. inversion H as [|? ? Hc Hu]; subst.
  cbn [chars_u map]. unfold is_high, is_low.
  destruct Hc as [Hc|[Hc Hc']]; Ndec; cbn [andb]; rewrite IH by assumption; reflexivity.
Qed.

Lemma pct_unicode : forall u, Forall scalar u ->
  pct_decode_raw None (flat_map fst (map (fun cp => enc1 true true false RESERVED (fst cp) (snd cp))
                                         (map (fun c => (c, false)) u))) = utf8_encode u.
Proof.
  induction u as [|c u IH]; intro H; [reflexivity|]. inversion H as [|? ? Hc Hu]; subst.
  cbn [flat_map map fst snd]. rewrite dec_enc1.
  - rewrite IH by assumption. reflexivity.
  - intros _. destruct Hc; lia.
  - discriminate.
Qed.

Lemma pieces_unicode : forall u,
  existsb snd (map (fun cp => enc1 true true false RESERVED (fst cp) (snd cp)) (map (fun c => (c, false)) u))
  = existsb unreserved u.
Proof.
  induction u as [|c u IH]; [reflexivity|]. cbn [map existsb fst snd]. rewrite IH. f_equal.
  unfold enc1. cbn [andb]. destruct (unreserved c); [reflexivity|].
  destruct (c <? 128); [destruct (mem c RESERVED)|]; reflexivity.
Qed.

Lemma utf8_bytes : forall u, Forall scalar u -> forallb (fun c => c <? 256) (utf8_encode u) = true.
Proof.
  intros u H. apply forallb_forall. intros x Hx. apply N.ltb_lt.
  unfold utf8_encode in Hx. apply in_flat_map in Hx as (c & Hc & Hx).
  rewrite Forall_forall in H. specialize (H c Hc).
  assert (Hb : Forall (fun b => b < 256) (utf8_1 c)) by (apply utf8_1_bytes; destruct H; lia).
  rewrite Forall_forall in Hb. auto.
Qed.

Lemma pct_roundtrip_unicode : forall u, Forall scalar u ->
  bind (percent_encode (PyU u)) percent_decode
  = Ok (if existsb unreserved u then PyU u else PyB (utf8_encode u)).
Proof.
  intros u H. unfold percent_encode, percent_encode_. rewrite chars_scalar by assumption. cbn [bind].
  rewrite pieces_unicode. destruct (existsb unreserved u).
  - unfold percent_decode, percent_decode_. rewrite pct_unicode by assumption.
    rewrite utf8_bytes by assumption. rewrite utf8_roundtrip; [reflexivity|].
    eapply Forall_impl; [|exact H]. intros c [Hc|Hc]; lia.
  - unfold percent_decode, percent_decode_. now rewrite pct_unicode.
Qed.

(** ** Encoded text is safe *)
Lemma unreserved_rfc : forall c, unreserved c = true <-> rfc_unreserved c.
Proof.
  intro c. unfold unreserved, rfc_unreserved. rewrite !orb_true_iff, mem_In. tauto.
Qed.
Lemma hexdigit_upper : forall n, n < 16 -> upper_hex (hexdigit n).
Proof.
  intros n H. unfold upper_hex.
  assert (Hn : In n [0;1;2;3;4;5;6;7;8;9;10;11;12;13;14;15]).
  { simpl. lia. }
  simpl in Hn. repeat destruct Hn as [<-|Hn]; try (cbn; tauto). 
Qed.
Lemma safe_pct2 : forall n s, n < 256 -> uri_safe s -> uri_safe (pct2 n ++ s).
Proof. intros. unfold pct2; cbn [app]. apply safe_pct; auto using hexdigit_upper, div16_lt, mod16_lt. Qed.
Lemma safe_pct2s : forall l s, Forall (fun b => b < 256) l -> uri_safe s -> uri_safe (flat_map pct2 l ++ s).
Proof.
  induction l as [|n l IH]; intros s H Hs; [assumption|]. inversion H; subst. cbn [flat_map].
  rewrite <- app_assoc. apply safe_pct2; auto.
Qed.
Lemma safe_enc1 : forall uni c s, (uni = true -> c < 1114112) -> (uni = false -> c < 256) ->
  uri_safe s -> uri_safe (fst (enc1 uni true false RESERVED c false) ++ s).
Proof.
  intros uni c s Hu Hb Hs. unfold enc1. cbn [andb].
  destruct (unreserved c) eqn:Eu.
  - apply safe_char; auto. now apply unreserved_rfc.
  - destruct (N.ltb_spec c 128).
    + destruct (mem c RESERVED); cbn [fst]; apply safe_pct2; auto; lia.
    + destruct uni; cbn [fst].
      * apply safe_pct2s; auto. apply utf8_1_bytes; auto.
      * apply safe_pct2; auto.
Qed.

Lemma pct_safe_bytes : forall b, Forall (fun c => c < 256) b ->
  uri_safe (flat_map (fun c => fst (enc1 false true false RESERVED c false)) b).
Proof.
  induction b as [|c b IH]; intro H; [constructor|]. inversion H; subst. cbn [flat_map].
  apply safe_enc1; auto; discriminate.
Qed.
Lemma pct_safe_unicode : forall u, Forall scalar u ->
  uri_safe (flat_map fst (map (fun cp => enc1 true true false RESERVED (fst cp) (snd cp)) (map (fun c => (c, false)) u))).
Proof.
  induction u as [|c u IH]; intro H; [constructor|]. inversion H as [|? ? Hc Hu]; subst. cbn [flat_map map fst snd].
  apply safe_enc1; auto; [|discriminate]. intros _; destruct Hc; lia.
Qed.

(** ** normalize_percent_encoding *)
Lemma any_hex_val : forall a, any_hex a -> exists x, hexval a = Some x /\ x < 16.
Proof.
  intros a H. unfold any_hex in H.
  cbn in H. repeat destruct H as [<-|H]; try (eexists; split; [reflexivity|lia]). destruct H.
Qed.
Lemma any_hex_ne : forall a, any_hex a -> a <> cPCT.
Proof. intros a H ->. unfold any_hex in H. cbn in H. repeat destruct H as [H|H]; try discriminate; destruct H. Qed.
Lemma int16_hex : forall a b, any_hex a -> any_hex b -> exists n, int16 a b = Some (Z.of_N n) /\ n < 256.
Proof.
  intros a b Ha Hb. apply any_hex_val in Ha as (x & Hx & Lx). apply any_hex_val in Hb as (y & Hy & Ly).
  exists (16 * x + y). unfold int16. rewrite Hx, Hy. split; auto. lia.
Qed.

Lemma pct_ind : forall d s (P : str -> str -> Prop), pct_wellformed s ->
  P [] [] ->
  (forall c s r, c <> cPCT -> pct_wellformed s -> P s r -> P (c :: s) (c :: r)) ->
  (forall a b n s r, any_hex a -> any_hex b -> int16 a b = Some (Z.of_N n) -> n < 256 -> pct_wellformed s -> P s r ->
      (match d with None => true | Some l => mem n l end) = true -> P (cPCT :: a :: b :: s) (n :: r)) ->
  (forall a b n s r, any_hex a -> any_hex b -> int16 a b = Some (Z.of_N n) -> n < 256 -> pct_wellformed s -> P s r ->
      (match d with None => true | Some l => mem n l end) = false -> P (cPCT :: a :: b :: s) (cPCT :: a :: b :: r)) ->
  P s (pct_decode_raw d s).
Proof.
  intros d s P H H0 H1 H2 H3. induction H as [|c s Hc Hs IH|a b s Ha Hb Hs IH].
  - exact H0.
  - rewrite dec_char by assumption. auto.
  - rewrite dec_esc by (apply any_hex_ne; assumption).
    destruct (int16_hex a b Ha Hb) as (n & En & Ln). rewrite En.
    destruct (Z.ltb_spec (Z.of_N n) 0); [lia|]. rewrite N2Z.id.
    destruct d as [l|].
    + destruct (mem n l) eqn:Em; eauto.
    + eauto.
Qed.

Lemma decodable_not_pct : mem cPCT DECODABLE = false.
Proof. reflexivity. Qed.

Lemma norm_pct_idem : forall s, pct_wellformed s ->
  pct_decode_raw (Some DECODABLE) (pct_decode_raw (Some DECODABLE) s) = pct_decode_raw (Some DECODABLE) s.
Proof.
  intros s H. pattern s, (pct_decode_raw (Some DECODABLE) s). apply (pct_ind (Some DECODABLE) s); auto.
  - intros c t r Hc _ IH. rewrite dec_char by assumption. now rewrite IH.
  - intros a b n t r _ _ _ _ _ IH Hm. rewrite dec_char. { now rewrite IH. }
    intros ->. rewrite decodable_not_pct in Hm. discriminate.
  - intros a b n t r Ha Hb En Ln _ IH Hm. rewrite dec_esc by (apply any_hex_ne; assumption).
    rewrite En. destruct (Z.ltb_spec (Z.of_N n) 0); [lia|]. rewrite N2Z.id, Hm, IH. reflexivity.
Qed.

Lemma norm_pct_meaning : forall s, pct_wellformed s ->
  pct_decode_raw None (pct_decode_raw (Some DECODABLE) s) = pct_decode_raw None s.
Proof.
  intros s H. pattern s, (pct_decode_raw (Some DECODABLE) s). apply (pct_ind (Some DECODABLE) s); auto.
  - intros c t r Hc _ IH. rewrite !dec_char by assumption. now rewrite IH.
  - intros a b n t r Ha Hb En Ln _ IH Hm. rewrite dec_char.
    + rewrite dec_esc by (apply any_hex_ne; assumption).
      rewrite En. destruct (Z.ltb_spec (Z.of_N n) 0); [lia|]. rewrite N2Z.id, IH. reflexivity.
    + intros ->. rewrite decodable_not_pct in Hm. discriminate.
  - intros a b n t r Ha Hb En Ln _ IH Hm. rewrite !dec_esc by (apply any_hex_ne; assumption).
    rewrite En, IH. reflexivity.
Qed.

Lemma norm_pct_wf : forall s, pct_wellformed s -> pct_wellformed (pct_decode_raw (Some DECODABLE) s).
Proof.
  intros s H. pattern s, (pct_decode_raw (Some DECODABLE) s). apply (pct_ind (Some DECODABLE) s); auto.
  - constructor.
  - intros; now constructor.
  - intros a b n t r _ _ _ _ _ IH Hm. constructor; auto. intros ->. rewrite decodable_not_pct in Hm. discriminate.
  - intros; now constructor.
Qed.

(** No triplet of an unreserved character remains. *)
Lemma decodable_unreserved : forall n, mem n DECODABLE = unreserved n.
Proof.
  intro n. destruct (N.ltb_spec n 128) as [H|H].
  - assert (Hall : forallb (fun k => Bool.eqb (mem k DECODABLE) (unreserved k)) (map N.of_nat (seq 0 128)) = true) by reflexivity.
    rewrite forallb_forall in Hall. specialize (Hall n).
    assert (In n (map N.of_nat (seq 0 128))) as Hin.
    { apply in_map_iff. exists (N.to_nat n). rewrite N2Nat.id. split; auto. apply in_seq. lia. }
    apply Hall in Hin. now apply eqb_prop in Hin.
  - destruct (unreserved n) eqn:E. { apply unreserved_lt in E. lia. }
    apply mem_false. intro Hin. cbn in Hin. repeat destruct Hin as [<-|Hin]; try lia; destruct Hin.
Qed.
