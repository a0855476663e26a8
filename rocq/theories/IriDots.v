(** * Proofs about remove_dot_segments *)
From Coq Require Import NArith String List Bool Lia Arith.
From Verif Require Import PyStr PyErr Regex Utf8 IriModel IriSpec.
Import ListNotations.
Open Scope N_scope.

(** ** The RFC loop terminates *)
Lemma rfc_dots_total : forall n input out, (length input < n)%nat -> exists r, rfc_dots n input out = Some r.
Proof.
  induction n as [|n IH]; intros input out Hlen; [lia|].
  cbn [rfc_dots]. destruct input as [|c input]; [eauto|].
  set (I := c :: input) in *.
  assert (Hsk : forall k, (0 < k)%nat -> (length (skipn k I) < length I)%nat).
  { intros k Hk. rewrite skipn_length. change (length I) with (S (length input)). lia. }
  destruct (prefixb (lit "../") I) eqn:E1. { apply IH. specialize (Hsk 3%nat). lia. }
  destruct (prefixb (lit "./") I) eqn:E2. { apply IH. specialize (Hsk 2%nat). lia. }
  destruct (prefixb (lit "/./") I) eqn:E3.
  { apply prefixb_spec in E3 as [r Hr]. rewrite Hr in *. apply IH. simpl in *. lia. }
  destruct (str_eqb_spec I (lit "/.")) as [E4|_]. { rewrite E4 in *. apply IH. simpl in *. lia. }
  destruct (prefixb (lit "/../") I) eqn:E5.
  { apply prefixb_spec in E5 as [r Hr]. rewrite Hr in *. apply IH. simpl in *. lia. }
  destruct (str_eqb_spec I (lit "/..")) as [E6|_]. { rewrite E6 in *. apply IH. simpl in *. lia. }
  destruct (str_eqb I (lit ".") || str_eqb I (lit "..")) eqn:E7.
  { apply IH. unfold I in Hlen. simpl in *. lia. }
  unfold I in *. destruct (N.eqb_spec c 47) as [->|Hc].
  - cbn [skipn]. destruct (span (fun x => negb (x =? 47)) input) as [seg rest] eqn:Es.
    apply span_spec in Es as (-> & _ & _). apply IH. simpl in *. rewrite app_length in *. lia.
  - destruct (span (fun x => negb (x =? 47)) (c :: input)) as [seg rest] eqn:Es.
    destruct (N.eqb_spec c 47) as [|_]; [congruence|].
    cbn [span] in Es. destruct (N.eqb_spec c 47) as [|_]; [congruence|]. cbn [negb] in Es.
    destruct (span (fun x => negb (x =? 47)) input) as [seg' rest'] eqn:Es'.
    injection Es as <- <-. apply span_spec in Es' as (-> & _ & _). apply IH. simpl in *. rewrite app_length in *. lia.
Qed.

(** More fuel does not change the result. *)
Lemma rfc_dots_mono : forall n input out r, rfc_dots n input out = Some r -> rfc_dots (S n) input out = Some r.
Proof.
  induction n as [|n IH]; intros input out r H; [discriminate|].
  cbn [rfc_dots] in H. remember (S n) as m. cbn [rfc_dots]. destruct input as [|c input]; auto.
  repeat match goal with
  | H : (if ?b then _ else _) = Some _ |- _ => destruct b; auto
  end.
  destruct (c =? 47).
  - destruct (span (fun x : N => negb (x =? 47)) (skipn 1 (c :: input))); apply IH; assumption.
  - destruct (span (fun x : N => negb (x =? 47)) (c :: input)); apply IH; assumption.
Qed.
Lemma rfc_dots_le : forall m n input out r, (n <= m)%nat -> rfc_dots n input out = Some r -> rfc_dots m input out = Some r.
Proof. intros m n input out r Hle H. induction Hle; auto. apply rfc_dots_mono; auto. Qed.

(** ** The RFC loop on segments *)

(** Output buffer for kept segments (last first). *)
Definition buf (keep : list str) : str := flat_map (fun s => cSLASH :: s) (rev keep).

Lemma buf_cons : forall s keep, buf (s :: keep) = buf keep ++ cSLASH :: s.
Proof. intros; unfold buf; simpl. rewrite flat_map_app; simpl. now rewrite app_nil_r. Qed.

Lemma rbreak1_app : forall c a b, ~ In c b -> rbreak1 c (a ++ c :: b) = (a ++ [c], b).
Proof.
  intros c a b Hb.
  assert (Hb' : forall b, ~ In c b -> rbreak1 c b = ([], b)).
  { clear. induction b as [|x b IH]; simpl; intro H; auto.
    rewrite IH by tauto. destruct (N.eqb_spec x c); auto. subst; tauto. }
  induction a as [|x a IH]; simpl.
  - rewrite Hb' by assumption. now rewrite N.eqb_refl.
  - rewrite IH. destruct a; reflexivity.
Qed.

Lemma rbreak1_none : forall c b, ~ In c b -> rbreak1 c b = ([], b).
Proof.
  induction b as [|x b IH]; simpl; intro H; auto.
  rewrite IH by tauto. destruct (N.eqb_spec x c); auto. subst; tauto.
Qed.

Lemma drop_last_buf : forall keep, Forall (fun s => ~ In cSLASH s) keep ->
  drop_last_segment (buf keep) = buf (tl keep).
Proof.
  intros [|s keep] H; [reflexivity|]. inversion H; subst.
  rewrite buf_cons. unfold drop_last_segment. rewrite rbreak1_app by assumption.
  destruct (buf keep ++ [cSLASH]) eqn:E; [destruct (buf keep); discriminate|].
  rewrite <- E. rewrite removelast_last. reflexivity.
Qed.

(** What the RFC algorithm does, segment by segment. *)
Fixpoint rfc_segs (keep : list str) (segs : list str) : list str :=
  match segs with
  | [] => keep
  | [s] => if str_eqb s seg_dotdot then [] :: tl keep
           else if str_eqb s seg_dot then [] :: keep else s :: keep
  | s :: rest => if str_eqb s seg_dotdot then rfc_segs (tl keep) rest
           else if str_eqb s seg_dot then rfc_segs keep rest else rfc_segs (s :: keep) rest
  end.

Lemma span_noslash : forall s r, ~ In cSLASH s -> (r = [] \/ exists r', r = cSLASH :: r') ->
  span (fun x => negb (x =? 47)) (s ++ r) = (s, r).
Proof.
  intros s r Hs Hr. apply span_app.
  - apply forallb_forall. intros x Hx. destruct (N.eqb_spec x 47); auto. subst; tauto.
  - destruct Hr as [->|[r' ->]]; auto.
Qed.

(** Rule selection for an input "/seg" or "/seg/...". *)
Lemma first_slash : forall s t r r', ~ In cSLASH s -> ~ In cSLASH t ->
  s ++ cSLASH :: r = t ++ cSLASH :: r' -> s = t /\ r = r'.
Proof.
  induction s as [|x s IH]; intros [|y t] r r' Hs Ht H; simpl in H.
  - now injection H.
  - injection H as <- _. exfalso; apply Ht; now left.
  - injection H as -> _. exfalso; apply Hs; now left.
  - injection H as -> H. destruct (IH t r r') as [-> ->]; auto; intro; [apply Hs|apply Ht]; now right.
Qed.
Lemma slash_seg_prefix : forall s t r, ~ In cSLASH s -> ~ In cSLASH t ->
  prefixb (cSLASH :: t ++ [cSLASH]) (cSLASH :: s ++ cSLASH :: r) = str_eqb s t.
Proof.
  intros s t r Hs Ht. apply eq_true_iff_eq. rewrite prefixb_spec, str_eqb_eq. split.
  - intros [q Hq]. simpl in Hq. injection Hq as Hq. rewrite <- app_assoc in Hq.
    now apply first_slash in Hq.
  - intros ->. exists r. simpl. now rewrite <- app_assoc.
Qed.
Lemma slash_dot_prefix : forall s r, ~ In cSLASH s -> prefixb (lit "/./") (cSLASH :: s ++ cSLASH :: r) = str_eqb s seg_dot.
Proof. intros. apply (slash_seg_prefix s seg_dot); auto. simpl; intuition discriminate. Qed.
Lemma slash_dotdot_prefix : forall s r, ~ In cSLASH s -> prefixb (lit "/../") (cSLASH :: s ++ cSLASH :: r) = str_eqb s seg_dotdot.
Proof. intros. apply (slash_seg_prefix s seg_dotdot); auto. simpl; intuition discriminate. Qed.
Lemma slash_seg_noprefix : forall s t, ~ In cSLASH s -> prefixb (cSLASH :: t ++ [cSLASH]) (cSLASH :: s) = false.
Proof.
  intros s t Hs. apply not_true_iff_false. rewrite prefixb_spec. intros [q Hq]. simpl in Hq. injection Hq as ->.
  apply Hs. rewrite <- app_assoc. apply in_or_app; right; now left.
Qed.
Lemma slash_dot_noprefix : forall s, ~ In cSLASH s -> prefixb (lit "/./") (cSLASH :: s) = false.
Proof. intros; now apply (slash_seg_noprefix s seg_dot). Qed.
Lemma slash_dotdot_noprefix : forall s, ~ In cSLASH s -> prefixb (lit "/../") (cSLASH :: s) = false.
Proof. intros; now apply (slash_seg_noprefix s seg_dotdot). Qed.

Lemma str_eqb_slash_app : forall s r t, ~ In cSLASH s -> ~ In cSLASH t ->
  str_eqb (cSLASH :: s ++ cSLASH :: r) (cSLASH :: t) = false.
Proof.
  intros s r t Hs Ht. destruct (str_eqb_spec (cSLASH :: s ++ cSLASH :: r) (cSLASH :: t)); auto.
  injection e as <-. exfalso; apply Ht; apply in_or_app; simpl; auto.
Qed.

Lemma rfc_dots_slash_end : forall n out, rfc_dots (S (S n)) (lit "/") out = Some (out ++ lit "/").
Proof. intros. cbn. reflexivity. Qed.

Lemma skipn_segs : forall (s r : str), skipn (S (length s)) (cSLASH :: s ++ r) = r.
Proof. intros; simpl. rewrite skipn_app, Nat.sub_diag, skipn_all. reflexivity. Qed.

Lemma rfc_dots_segs : forall segs keep n,
  segs <> [] -> Forall (fun s => ~ In cSLASH s) segs -> Forall (fun s => ~ In cSLASH s) keep ->
  (length (join [cSLASH] segs) + 1 < n)%nat ->
  rfc_dots n (cSLASH :: join [cSLASH] segs) (buf keep) = Some (buf (rfc_segs keep segs)).
Proof.
  induction segs as [|s segs IH]; intros keep n Hne HF HK Hn; [congruence|].
  inversion HF as [|? ? Hs HF']; subst.
  destruct n as [|n]; [lia|].
  destruct segs as [|s2 segs].
  - (* last segment *)
    simpl join in *.
    destruct n as [|n]; [lia|].
    remember (S n) as m. cbn [rfc_dots].
    replace (prefixb (lit "../") (cSLASH :: s)) with false by reflexivity.
    replace (prefixb (lit "./") (cSLASH :: s)) with false by reflexivity.
    rewrite slash_dot_noprefix, slash_dotdot_noprefix by assumption.
    change (lit "/.") with (cSLASH :: seg_dot). change (lit "/..") with (cSLASH :: seg_dotdot).
    cbn [str_eqb]. change (cSLASH =? cSLASH) with true. cbn [andb].
    unfold rfc_segs.
    destruct (str_eqb_spec s seg_dot) as [->|Hd].
    + simpl in Hn. destruct m as [|[|k]]; [lia|lia|]. rewrite rfc_dots_slash_end.
      simpl. rewrite buf_cons. reflexivity.
    + destruct (str_eqb_spec s seg_dotdot) as [->|Hdd].
      * simpl in Hn. destruct m as [|[|k]]; [lia|lia|]. rewrite rfc_dots_slash_end.
        rewrite drop_last_buf by assumption. rewrite buf_cons. reflexivity.
      * replace (str_eqb (cSLASH :: s) (lit ".") || str_eqb (cSLASH :: s) (lit "..")) with false by reflexivity.
        change (cSLASH =? 47) with true. cbn [skipn]. cbv iota.
        rewrite <- (app_nil_r s) at 1. rewrite span_noslash by auto.
        subst m. cbn [rfc_dots]. rewrite buf_cons. reflexivity.
  - rewrite join_cons2. change (s ++ [cSLASH] ++ ?x) with (s ++ cSLASH :: x).
    set (J := join [cSLASH] (s2 :: segs)) in *.
    assert (Hlen : (length (join [cSLASH] (s :: s2 :: segs)) = length s + S (length J))%nat).
    { rewrite join_cons2. rewrite !app_length. simpl. reflexivity. }
    rewrite Hlen in Hn.
    cbn [rfc_dots].
    replace (prefixb (lit "../") (cSLASH :: s ++ cSLASH :: J)) with false by reflexivity.
    replace (prefixb (lit "./") (cSLASH :: s ++ cSLASH :: J)) with false by reflexivity.
    rewrite slash_dot_prefix, slash_dotdot_prefix by assumption.
    change (lit "/.") with (cSLASH :: seg_dot). change (lit "/..") with (cSLASH :: seg_dotdot).
    rewrite !str_eqb_slash_app by (auto; simpl; intuition discriminate).
    replace (str_eqb (cSLASH :: s ++ cSLASH :: J) (lit ".") || str_eqb (cSLASH :: s ++ cSLASH :: J) (lit "..")) with false by reflexivity.
    destruct (str_eqb_spec s seg_dot) as [->|Hd].
    + cbn [app seg_dot skipn lit]. simpl in Hn.
      change (rfc_segs keep (seg_dot :: s2 :: segs)) with (rfc_segs keep (s2 :: segs)).
      apply IH; auto; [congruence|]. fold J. lia.
    + destruct (str_eqb_spec s seg_dotdot) as [->|Hdd].
      * simpl in Hn. rewrite drop_last_buf by assumption.
        change (rfc_segs keep (seg_dotdot :: s2 :: segs)) with (rfc_segs (tl keep) (s2 :: segs)).
        apply IH; auto; [congruence| |fold J; lia].
        destruct keep; auto. inversion HK; auto.
      * change (cSLASH =? 47) with true. cbn [skipn]. cbv iota.
        rewrite span_noslash by eauto.
        cbn [app]. rewrite <- buf_cons.
        replace (rfc_segs keep (s :: s2 :: segs)) with (rfc_segs (s :: keep) (s2 :: segs)).
        2:{ cbn [rfc_segs]. destruct (str_eqb_spec s seg_dotdot); [congruence|]. destruct (str_eqb_spec s seg_dot); [congruence|]. reflexivity. }
        apply IH; auto; [congruence|]. fold J. lia.
Qed.

(** ** The code on segments *)

(** Replace a final "." segment by an empty one, if there are at least two. *)
Fixpoint fix_last (segs : list str) : list str :=
  match segs with
  | [] => []
  | s :: rest =>
    match rest with
    | [t] => if str_eqb t seg_dot then [s; []] else segs
    | _ => s :: fix_last rest
    end
  end.

Lemma drop_trailing_cons : forall x y z p, drop_trailing_dot (x :: y :: z :: p) = x :: drop_trailing_dot (y :: z :: p).
Proof. reflexivity. Qed.
Lemma fix_last_cons3 : forall x y z p, fix_last (x :: y :: z :: p) = x :: fix_last (y :: z :: p).
Proof. reflexivity. Qed.

Lemma fix_last_hd : forall x w ws, ws <> [] -> fix_last ((x :: w) :: ws) = 
   match fix_last (w :: ws) with h :: t => (x :: h) :: t | [] => [] end.
Proof.
  intros x w [|w2 [|w3 ws]] H; [congruence| |reflexivity].
  simpl. destruct (str_eqb w2 seg_dot); reflexivity.
Qed.

Lemma split1_one : forall c x, split1 c [x] = if x =? c then [[]; []] else [[x]].
Proof. reflexivity. Qed.

Lemma split_drop_trailing : forall p, split1 cSLASH (drop_trailing_dot p) = fix_last (split1 cSLASH p).
Proof.
  induction p as [|x p IH]; [reflexivity|].
  destruct p as [|y p].
  { simpl. destruct (x =? 47); reflexivity. }
  destruct p as [|z p].
  { simpl.
    repeat (match goal with |- context[N.eqb ?a ?b] => destruct (N.eqb_spec a b); try subst end; simpl);
    congruence. }
  rewrite drop_trailing_cons. 
  change (split1 cSLASH (x :: ?q)) with
    (if N.eqb x cSLASH then [] :: split1 cSLASH q
     else match split1 cSLASH q with [] => [[x]] | w :: ws => (x :: w) :: ws end).
  rewrite IH. set (L := split1 cSLASH (y :: z :: p)) in *.
  assert (HL : L <> []) by apply split1_nonempty.
  (* if the whole rest is one segment it has two characters or more, so it is not "." *)
  assert (HL1 : forall t, L = [t] -> str_eqb t seg_dot = false).
  { intros t Ht. assert (t = y :: z :: p).
    { pose proof (join_split1 cSLASH (y :: z :: p)) as J. fold L in J. rewrite Ht in J. simpl in J. congruence. }
    subst t. simpl. destruct (y =? 46); reflexivity. }
  destruct (x =? 47).
  - destruct L as [|a [|b L]]; [congruence| |reflexivity].
    simpl. rewrite HL1 by reflexivity. reflexivity.
  - destruct L as [|a L]; [congruence|].
    destruct L as [|b L]; [simpl; reflexivity|].
    rewrite fix_last_hd by congruence.
    destruct (fix_last (a :: b :: L)) eqn:E; [|reflexivity].
    simpl in E. destruct L; [destruct (str_eqb b seg_dot); discriminate|discriminate].
Qed.

(** The code's segment loop after the trailing-dot fix computes what the RFC
    computes, except that a lone "." is dropped instead of leaving an empty
    segment. *)
Lemma dot_loop_rfc : forall segs keep, segs <> [] -> (segs = [seg_dot] -> keep <> []) ->
  match segs with
  | [s] => s <> seg_dot -> dot_loop true keep segs = rfc_segs keep segs
  | _ => dot_loop true keep (fix_last segs) = rfc_segs keep segs
  end.
Proof.
  induction segs as [|s segs IH]; intros keep Hne _; [congruence|].
  destruct segs as [|s2 segs].
  - intro Hs. simpl. destruct (str_eqb_spec s seg_dotdot); [destruct keep; reflexivity|].
    destruct (str_eqb_spec s seg_dot); [congruence|reflexivity].
  - destruct segs as [|s3 segs].
    + simpl fix_last. destruct (str_eqb_spec s2 seg_dot) as [->|H2].
      * simpl. destruct (str_eqb_spec s seg_dotdot); [destruct keep; reflexivity|].
        destruct (str_eqb_spec s seg_dot); reflexivity.
      * assert (A : forall k, dot_loop true k [s2] = rfc_segs k [s2]).
        { intro k. apply (IH k); try congruence. }
        change (dot_loop true keep [s; s2]) with
          (dot_loop true (if str_eqb s seg_dotdot then match keep with _ :: k => k | [] => [] end
                          else if str_eqb s seg_dot then keep else s :: keep) [s2]).
        rewrite A. change (rfc_segs keep [s; s2]) with
          (if str_eqb s seg_dotdot then rfc_segs (tl keep) [s2]
           else if str_eqb s seg_dot then rfc_segs keep [s2] else rfc_segs (s :: keep) [s2]).
        destruct (str_eqb s seg_dotdot); [destruct keep; reflexivity|]. destruct (str_eqb s seg_dot); reflexivity.
    + rewrite fix_last_cons3.
      assert (A : forall k, dot_loop true k (fix_last (s2 :: s3 :: segs)) = rfc_segs k (s2 :: s3 :: segs)).
      { intro k. apply (IH k); congruence. }
      assert (Hfl : exists a b, fix_last (s2 :: s3 :: segs) = a :: b).
      { destruct segs; simpl; [destruct (str_eqb s3 seg_dot)|]; eauto. }
      destruct Hfl as (a & b & Hfl).
      change (dot_loop true keep (s :: ?r)) with
          (dot_loop true (if str_eqb s seg_dotdot then
             let k1 := match keep with _ :: k => k | [] => [] end in match r with [] => [] :: k1 | _ => k1 end
             else if str_eqb s seg_dot then keep else s :: keep) r).
      rewrite A. rewrite Hfl. cbv zeta.
      change (rfc_segs keep (s :: s2 :: s3 :: segs)) with
          (if str_eqb s seg_dotdot then rfc_segs (tl keep) (s2 :: s3 :: segs)
           else if str_eqb s seg_dot then rfc_segs keep (s2 :: s3 :: segs) else rfc_segs (s :: keep) (s2 :: s3 :: segs)).
      destruct (str_eqb s seg_dotdot); [destruct keep; reflexivity|]. destruct (str_eqb s seg_dot); reflexivity.
Qed.

Lemma rfc_segs_nonempty : forall segs keep, segs <> [] -> rfc_segs keep segs <> [].
Proof.
  induction segs as [|s segs IH]; intros keep H; [congruence|].
  destruct segs as [|s2 segs].
  - simpl. destruct (str_eqb s seg_dotdot); [congruence|]. destruct (str_eqb s seg_dot); congruence.
  - change (rfc_segs keep (s :: s2 :: segs)) with
          (if str_eqb s seg_dotdot then rfc_segs (tl keep) (s2 :: segs)
           else if str_eqb s seg_dot then rfc_segs keep (s2 :: segs) else rfc_segs (s :: keep) (s2 :: segs)).
    destruct (str_eqb s seg_dotdot); [|destruct (str_eqb s seg_dot)]; apply IH; congruence.
Qed.

Lemma buf_join : forall keep, keep <> [] -> buf keep = cSLASH :: join [cSLASH] (rev keep).
Proof.
  intros keep H. unfold buf.
  assert (Hr : rev keep <> []). { intro E. apply H. rewrite <- (rev_involutive keep), E. reflexivity. }
  remember (rev keep) as l. clear - Hr. induction l as [|s l IH]; [congruence|].
  destruct l as [|s2 l].
  - simpl. now rewrite app_nil_r.
  - change (flat_map (fun s : str => cSLASH :: s) (s :: s2 :: l)) with
      ((cSLASH :: s) ++ flat_map (fun s : str => cSLASH :: s) (s2 :: l)).
    rewrite IH by congruence. reflexivity.
Qed.

Lemma model_abs : forall p, remove_dot_segments (cSLASH :: p) = buf (rfc_segs [] (split1 cSLASH p)).
Proof.
  intro p. unfold remove_dot_segments.
  replace (str_eqb (cSLASH :: p) seg_dot || str_eqb (cSLASH :: p) seg_dotdot) with false by reflexivity.
  assert (Hs : strip_leading_dots (cSLASH :: p) = cSLASH :: p) by (destruct p; reflexivity).
  rewrite Hs. change (cSLASH =? cSLASH) with true. cbv iota beta zeta.
  rewrite split_drop_trailing.
  pose proof (split1_nonempty cSLASH p) as Hne.
  destruct (split1 cSLASH p) as [|s [|s2 segs]] eqn:E; [congruence| |].
  - simpl fix_last. destruct (str_eqb_spec s seg_dot) as [->|Hd].
    + reflexivity.
    + pose proof (dot_loop_rfc [s] []) as D. cbv beta iota in D. rewrite D; auto; try congruence.
      rewrite buf_join by (apply rfc_segs_nonempty; congruence). reflexivity.
  - pose proof (dot_loop_rfc (s :: s2 :: segs) []) as D. cbv beta iota in D. rewrite D; try congruence.
    rewrite buf_join by (apply rfc_segs_nonempty; congruence). reflexivity.
Qed.

Lemma remove_dots_rfc : forall p, rfc_remove_dot_segments (cSLASH :: p) = Some (remove_dot_segments (cSLASH :: p)).
Proof.
  intro p. rewrite model_abs. unfold rfc_remove_dot_segments.
  destruct (rfc_dots_total (S (length (cSLASH :: p))) (cSLASH :: p) []) as [r Hr]; [lia|].
  rewrite Hr. f_equal.
  assert (H : rfc_dots (S (S (length (cSLASH :: p)))) (cSLASH :: p) (buf []) = Some (buf (rfc_segs [] (split1 cSLASH p)))).
  { rewrite <- (join_split1 cSLASH p) at 2.
    apply rfc_dots_segs; auto using split1_nonempty, split1_pieces.
    rewrite join_split1. simpl. lia. }
  apply rfc_dots_mono in Hr. change (buf []) with (@nil N) in H. congruence.
Qed.

(** ** The result has no dot segments *)
Definition plain (s : str) : Prop := s <> seg_dot /\ s <> seg_dotdot /\ ~ In cSLASH s.

Lemma rfc_segs_plain : forall segs keep, Forall (fun s => ~ In cSLASH s) segs -> Forall plain keep ->
  Forall plain (rfc_segs keep segs).
Proof.
  assert (P0 : plain []). { repeat split; try discriminate. auto. }
  assert (Ptl : forall k, Forall plain k -> Forall plain (tl k)). { intros [|? ?] H; auto. inversion H; auto. }
  induction segs as [|s segs IH]; intros keep HF HK; [auto|].
  inversion HF; subst.
  destruct segs as [|s2 segs].
  - simpl. destruct (str_eqb_spec s seg_dotdot); [constructor; auto|].
    destruct (str_eqb_spec s seg_dot); constructor; auto. repeat split; auto.
  - change (rfc_segs keep (s :: s2 :: segs)) with
          (if str_eqb s seg_dotdot then rfc_segs (tl keep) (s2 :: segs)
           else if str_eqb s seg_dot then rfc_segs keep (s2 :: segs) else rfc_segs (s :: keep) (s2 :: segs)).
    destruct (str_eqb_spec s seg_dotdot); [apply IH; auto|]. destruct (str_eqb_spec s seg_dot); apply IH; auto.
    constructor; auto. repeat split; auto.
Qed.

Lemma rfc_segs_id : forall segs keep, Forall plain segs -> rfc_segs keep segs = rev segs ++ keep.
Proof.
  induction segs as [|s segs IH]; intros keep H; [reflexivity|].
  inversion H as [|? ? (H1 & H2 & _) HF]; subst.
  destruct segs as [|s2 segs].
  - simpl. destruct (str_eqb_spec s seg_dotdot); [congruence|]. destruct (str_eqb_spec s seg_dot); [congruence|reflexivity].
  - change (rfc_segs keep (s :: s2 :: segs)) with
          (if str_eqb s seg_dotdot then rfc_segs (tl keep) (s2 :: segs)
           else if str_eqb s seg_dot then rfc_segs keep (s2 :: segs) else rfc_segs (s :: keep) (s2 :: segs)).
    destruct (str_eqb_spec s seg_dotdot); [congruence|]. destruct (str_eqb_spec s seg_dot); [congruence|].
    rewrite IH by assumption. simpl. rewrite <- !app_assoc. reflexivity.
Qed.

Lemma remove_dots_segments : forall p, exists segs, segs <> [] /\ Forall plain segs /\
  remove_dot_segments (cSLASH :: p) = cSLASH :: join [cSLASH] segs.
Proof.
  intro p. rewrite model_abs. exists (rev (rfc_segs [] (split1 cSLASH p))).
  assert (Hne : rfc_segs [] (split1 cSLASH p) <> []) by (apply rfc_segs_nonempty, split1_nonempty).
  split; [|split].
  - intro E. apply Hne. rewrite <- (rev_involutive (rfc_segs _ _)), E. reflexivity.
  - apply Forall_rev. apply rfc_segs_plain; auto using split1_pieces.
  - now apply buf_join.
Qed.

Lemma remove_dots_id : forall segs, segs <> [] -> Forall plain segs ->
  remove_dot_segments (cSLASH :: join [cSLASH] segs) = cSLASH :: join [cSLASH] segs.
Proof.
  intros segs Hne HF. rewrite model_abs. rewrite split1_join; auto.
  2:{ eapply Forall_impl; [|exact HF]. intros a (_ & _ & H); exact H. }
  rewrite rfc_segs_id by assumption. rewrite app_nil_r.
  rewrite buf_join.
  - now rewrite rev_involutive.
  - intro E. apply Hne. rewrite <- (rev_involutive segs), E. reflexivity.
Qed.

Lemma remove_dots_idem_abs : forall p,
  remove_dot_segments (remove_dot_segments (cSLASH :: p)) = remove_dot_segments (cSLASH :: p).
Proof.
  intro p. destruct (remove_dots_segments p) as (segs & Hne & HF & ->). now apply remove_dots_id.
Qed.

Lemma remove_dots_no_dot : forall p, no_dot_segment (remove_dot_segments (cSLASH :: p)).
Proof.
  intro p. destruct (remove_dots_segments p) as (segs & Hne & HF & ->).
  unfold no_dot_segment. change (split1 47 (cSLASH :: ?x)) with ([] :: split1 cSLASH x).
  rewrite split1_join; auto.
  2:{ eapply Forall_impl; [|exact HF]. intros a (_ & _ & H); exact H. }
  rewrite Forall_forall in HF. split; intros [H|H]; try discriminate.
  - apply HF in H as (H & _). apply H. reflexivity.
  - apply HF in H as (_ & H & _). apply H. reflexivity.
Qed.

(** A path without dot segments is left alone. *)
Lemma remove_dots_fix : forall p, no_dot_segment (cSLASH :: p) -> remove_dot_segments (cSLASH :: p) = cSLASH :: p.
Proof.
  intros p [H1 H2]. change (split1 47 (cSLASH :: p)) with ([] :: split1 cSLASH p) in *.
  rewrite <- (join_split1 cSLASH p). apply remove_dots_id; [apply split1_nonempty|].
  pose proof (split1_pieces cSLASH p) as HP. rewrite Forall_forall in *. intros s Hs. repeat split.
  - intros ->. apply H1; now right.
  - intros ->. apply H2; now right.
  - now apply HP.
Qed.
