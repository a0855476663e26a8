(** * A backtracking matcher for the subset of Python [re] used in /repo.

    Characters, greedy repetition of a character class, sequence, greedy
    optional group, capture groups, end anchors.  Matching follows Python's
    backtracking order: the first success in leftmost, greedy order is the
    match.  [Eol] is [$] (end of string, or just before a final newline),
    [Eos] is [\Z]. *)
From Coq Require Import Arith NArith List Bool Lia.
From Verif Require Import PyStr.
Import ListNotations.
Open Scope N_scope.

Inductive re :=
| Chr (p : N -> bool)                 (* one character in a class *)
| Star (p : N -> bool)                (* class*, greedy *)
| Plus (p : N -> bool)                (* class+, greedy *)
| Seq (a b : re)
| Opt (a : re)                        (* (?:a)?, greedy *)
| Grp (g : nat) (a : re)              (* (?P<g>a) *)
| Alt (a b : re)                      (* a|b *)
| Eps
| Eol | Eos.

(** Captured groups: group number to text; the latest capture is first. *)
Definition caps := list (nat * str).
Fixpoint cap (g : nat) (c : caps) : option str :=
  match c with
  | [] => None
  | (h, s) :: c' => if Nat.eqb g h then Some s else cap g c'
  end.

(** Result: rest of the input and captures. *)
Definition res := option (str * caps).

(** Greedy class repetition with backtracking into the continuation; [acc] is
    what the repetition has consumed so far, reversed. *)
Fixpoint star_m (p : N -> bool) (s : str) (k : str -> res) : res :=
  match s with
  | x :: s' =>
    if p x then
      match star_m p s' k with
      | Some r => Some r
      | None => k s
      end
    else k s
  | [] => k s
  end.

(** Text consumed between [s] and a suffix [r] of it. *)
Definition consumed (s r : str) : str := firstn (length s - length r) s.

Fixpoint mtch (r : re) (s : str) (c : caps) (k : str -> caps -> res) : res :=
  match r with
  | Chr p => match s with x :: s' => if p x then k s' c else None | [] => None end
  | Star p => star_m p s (fun s' => k s' c)
  | Plus p => match s with
              | x :: s' => if p x then star_m p s' (fun s'' => k s'' c) else None
              | [] => None
              end
  | Seq a b => mtch a s c (fun s' c' => mtch b s' c' k)
  | Opt a => match mtch a s c k with Some r => Some r | None => k s c end
  | Grp g a => mtch a s c (fun s' c' => k s' ((g, consumed s s') :: c'))
  | Alt a b => match mtch a s c k with Some r => Some r | None => mtch b s c k end
  | Eps => k s c
  | Eol => match s with [] => k s c | [10] => k s c | _ => None end
  | Eos => match s with [] => k s c | _ => None end
  end.

(** [re.match(r, s)] *)
Definition re_match (r : re) (s : str) : res := mtch r s [] (fun s' c => Some (s', c)).

(** ** Lemmas *)
Lemma star_m_some : forall p s k, 
  (forall a b, s = a ++ b -> forallb p a = true -> k b = None) -> star_m p s k = None.
Proof.
  induction s as [|x s IH]; simpl; intros k H.
  - apply (H [] []); auto.
  - destruct (p x) eqn:Hp.
    + rewrite IH. { apply (H [] (x :: s)); auto. }
      intros a b -> Ha. apply (H (x :: a) b); auto. simpl; now rewrite Hp.
    + apply (H [] (x :: s)); auto.
Qed.

(** If the continuation succeeds after the maximal run, that is the match. *)
Lemma star_m_max : forall p s k a b r, span p s = (a, b) -> k b = Some r -> star_m p s k = Some r.
Proof.
  induction s as [|x s IH]; simpl; intros k a b r H Hk.
  - injection H as <- <-; auto.
  - destruct (p x) eqn:Hp.
    + destruct (span p s) as [a' b'] eqn:E. injection H as <- <-.
      erewrite IH; eauto.
    + injection H as <- <-; auto.
Qed.

(** If the continuation fails on everything but the maximal run. *)
Lemma star_m_only_max : forall p s k a b, span p s = (a, b) ->
  (forall x t, p x = true -> k (x :: t) = None) -> star_m p s k = k b.
Proof.
  induction s as [|x s IH]; simpl; intros k a b H Hk.
  - injection H as <- <-; auto.
  - destruct (p x) eqn:Hp.
    + destruct (span p s) as [a' b'] eqn:E. injection H as <- <-.
      rewrite (IH k a' b' eq_refl Hk). rewrite (Hk x s Hp). now destruct (k b').
    + injection H as <- <-; auto.
Qed.

Lemma consumed_app : forall a b, consumed (a ++ b) b = a.
Proof.
  intros; unfold consumed. rewrite app_length.
  replace (length a + length b - length b)%nat with (length a) by lia.
  rewrite firstn_app, Nat.sub_diag, firstn_all. simpl. apply app_nil_r.
Qed.

Lemma consumed_cons_app : forall x a b, consumed (x :: a ++ b) b = x :: a.
Proof. intros; apply (consumed_app (x :: a) b). Qed.

Lemma consumed_nil : forall s, consumed s s = [].
Proof. intro; unfold consumed; now rewrite Nat.sub_diag. Qed.
