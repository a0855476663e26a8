(** * Python string primitives shared by all models.

    A Unicode string is the list of its code points, a byte string the list of
    its bytes.  This file models built-in methods of Python 2 strings
    (split, join, find, replace, startswith, ...), not code in /repo; every
    use in a model cites the /repo line that calls the method. *)
From Coq Require Import NArith Ascii String List Bool Lia.
Import ListNotations.
Open Scope N_scope.

Notation str := (list N).

(** A Coq string literal as code points (ASCII only). *)
Definition lit (s : string) : str := List.map N_of_ascii (list_ascii_of_string s).

Fixpoint str_eqb (a b : str) : bool :=
  match a, b with
  | [], [] => true
  | x :: a', y :: b' => N.eqb x y && str_eqb a' b'
  | _, _ => false
  end.

(** [c in s] for one character. *)
Definition mem (c : N) (s : str) : bool := existsb (N.eqb c) s.

(** [s.startswith(p)] *)
Fixpoint prefixb (p s : str) : bool :=
  match p, s with
  | [], _ => true
  | x :: p', y :: s' => N.eqb x y && prefixb p' s'
  | _ :: _, [] => false
  end.

(** [s.split(c)] for a one-character separator: never empty. *)
Fixpoint split1 (c : N) (s : str) : list str :=
  match s with
  | [] => [[]]
  | x :: s' =>
    if N.eqb x c then [] :: split1 c s'
    else match split1 c s' with
         | [] => [[x]]
         | w :: ws => (x :: w) :: ws
         end
  end.

(** [sep.join(l)] *)
Fixpoint join (sep : str) (l : list str) : str :=
  match l with
  | [] => []
  | [w] => w
  | w :: ws => w ++ sep ++ join sep ws
  end.

(** Text before and after the first [c], or [None] if [c] does not occur:
    the information in [s.find(c)]. *)
Fixpoint break1 (c : N) (s : str) : option (str * str) :=
  match s with
  | [] => None
  | x :: s' =>
    if N.eqb x c then Some ([], s')
    else match break1 c s' with
         | Some (a, b) => Some (x :: a, b)
         | None => None
         end
  end.

(** Text up to and including the last [c] and the text after it:
    [(s[:s.rfind(c)+1], s[s.rfind(c)+1:])]. *)
Fixpoint rbreak1 (c : N) (s : str) : str * str :=
  match s with
  | [] => ([], [])
  | x :: s' =>
    let (a, b) := rbreak1 c s' in
    match a with
    | [] => if N.eqb x c then ([x], b) else ([], x :: b)
    | _ => (x :: a, b)
    end
  end.

(** Longest prefix whose characters satisfy [p], and the rest. *)
Fixpoint span (p : N -> bool) (s : str) : str * str :=
  match s with
  | [] => ([], [])
  | x :: s' => if p x then let (a, b) := span p s' in (x :: a, b) else ([], s)
  end.

(** [s.replace(c, r)] for a one-character pattern. *)
Definition replace1 (c : N) (r : str) (s : str) : str :=
  flat_map (fun x => if N.eqb x c then r else [x]) s.

(** Text before the first occurrence of a two-character pattern and after it,
    leftmost, non-overlapping: [s.split(ab)]. *)
Fixpoint split2 (a b : N) (s : str) : list str :=
  match s with
  | [] => [[]]
  | x :: s' =>
    match s' with
    | y :: s'' =>
      if N.eqb x a && N.eqb y b then [] :: split2 a b s''
      else match split2 a b s' with
           | [] => [[x]]
           | w :: ws => (x :: w) :: ws
           end
    | [] => [[x]]
    end
  end.

Definition is_digit (c : N) : bool := (48 <=? c) && (c <=? 57).
Definition is_upper (c : N) : bool := (65 <=? c) && (c <=? 90).
Definition is_lower (c : N) : bool := (97 <=? c) && (c <=? 122).
Definition is_alpha (c : N) : bool := is_upper c || is_lower c.

(** ASCII part of [c.lower()] / [c.upper()]; characters outside ASCII are left
    alone (simplification: Python's Unicode case mapping is not modelled). *)
Definition lower1 (c : N) : N := if is_upper c then c + 32 else c.
Definition upper1 (c : N) : N := if is_lower c then c - 32 else c.
Definition lower (s : str) : str := map lower1 s.
Definition upper (s : str) : str := map upper1 s.

(** ** Lemmas *)

Lemma str_eqb_spec : forall a b, reflect (a = b) (str_eqb a b).
Proof.
  induction a as [|x a IH]; destruct b as [|y b]; simpl; try (constructor; congruence).
  destruct (N.eqb_spec x y); simpl.
  - destruct (IH b); constructor; congruence.
  - constructor; congruence.
Qed.

Lemma str_eqb_refl : forall a, str_eqb a a = true.
Proof. intro a; destruct (str_eqb_spec a a); congruence. Qed.

Lemma str_eqb_eq : forall a b, str_eqb a b = true <-> a = b.
Proof. intros; destruct (str_eqb_spec a b); split; congruence. Qed.

Lemma str_eq_dec : forall a b : str, {a = b} + {a <> b}.
Proof. apply list_eq_dec; apply N.eq_dec. Qed.

Lemma mem_In : forall c s, mem c s = true <-> In c s.
Proof.
  intros; unfold mem; rewrite existsb_exists; split.
  - intros [x [H1 H2]]; apply N.eqb_eq in H2; subst; auto.
  - intro; exists c; rewrite N.eqb_refl; auto.
Qed.

Lemma mem_false : forall c s, mem c s = false <-> ~ In c s.
Proof. intros; rewrite <- mem_In; destruct (mem c s); split; congruence. Qed.

Lemma prefixb_spec : forall p s, prefixb p s = true <-> exists r, s = p ++ r.
Proof.
  induction p as [|x p IH]; intro s; simpl.
  - split; eauto.
  - destruct s as [|y s].
    + split; [discriminate | intros [r Hr]; discriminate].
    + rewrite andb_true_iff, N.eqb_eq, IH. split.
      * intros [-> [r ->]]; eauto.
      * intros [r Hr]; injection Hr as -> ->; eauto.
Qed.

Lemma split1_nonempty : forall c s, split1 c s <> [].
Proof. destruct s; simpl; try congruence. destruct (n =? c); try congruence. destruct (split1 c s); congruence. Qed.

Lemma join_cons2 : forall sep w w' ws, join sep (w :: w' :: ws) = w ++ sep ++ join sep (w' :: ws).
Proof. reflexivity. Qed.

Lemma join_cons_ne : forall sep w ws, ws <> [] -> join sep (w :: ws) = w ++ sep ++ join sep ws.
Proof. intros; destruct ws; [congruence|reflexivity]. Qed.

Lemma join_hd : forall sep x w ws, join sep ((x :: w) :: ws) = x :: join sep (w :: ws).
Proof. intros; destruct ws; reflexivity. Qed.

Lemma join_split1 : forall c s, join [c] (split1 c s) = s.
Proof.
  induction s as [|x s IH]; [reflexivity|]. simpl split1.
  destruct (N.eqb_spec x c) as [->|Hne].
  - rewrite join_cons_ne by apply split1_nonempty. simpl. now rewrite IH.
  - destruct (split1 c s) eqn:E; [now apply split1_nonempty in E|].
    rewrite join_hd. now rewrite IH.
Qed.

Lemma split1_nosep : forall c s, ~ In c s -> split1 c s = [s].
Proof.
  induction s as [|x s IH]; simpl; intro H; [reflexivity|].
  destruct (N.eqb_spec x c); [tauto|]. rewrite IH by tauto. reflexivity.
Qed.

Lemma split1_app_sep : forall c a b, ~ In c a -> split1 c (a ++ c :: b) = a :: split1 c b.
Proof.
  induction a as [|x a IH]; simpl; intros b H.
  - now rewrite N.eqb_refl.
  - destruct (N.eqb_spec x c); [tauto|]. now rewrite IH by tauto.
Qed.

Lemma split1_join : forall c l, l <> [] -> Forall (fun w => ~ In c w) l -> split1 c (join [c] l) = l.
Proof.
  induction l as [|w l IH]; intros Hne HF; [congruence|].
  inversion HF; subst. destruct l as [|w' l].
  - simpl. now apply split1_nosep.
  - rewrite join_cons2. change (w ++ [c] ++ join [c] (w' :: l)) with (w ++ c :: join [c] (w' :: l)).
    rewrite split1_app_sep by assumption. f_equal. apply IH; [congruence|assumption].
Qed.

Lemma split1_pieces : forall c s, Forall (fun w => ~ In c w) (split1 c s).
Proof.
  induction s as [|x s IH]; simpl.
  - constructor; auto.
  - destruct (N.eqb_spec x c).
    + constructor; auto.
    + destruct (split1 c s) as [|w ws]; [now repeat constructor; simpl; intros [?|?]|].
      inversion IH; subst; constructor; auto. simpl; intros [?|?]; auto.
Qed.

(** Characters of the pieces come from the string. *)
Lemma split1_In : forall c s w x, In w (split1 c s) -> In x w -> In x s.
Proof.
  induction s as [|y s IH]; simpl; intros w x Hw Hx.
  - destruct Hw as [<-|[]]; auto.
  - destruct (N.eqb_spec y c).
    + destruct Hw as [<-|Hw]; [destruct Hx|]. right; eauto.
    + destruct (split1 c s) as [|w0 ws] eqn:E.
      * destruct Hw as [<-|[]]. destruct Hx as [->|[]]. now left.
      * destruct Hw as [<-|Hw].
        -- destruct Hx as [->|Hx]; [now left|]. right. eapply IH; [now left|auto].
        -- right. eapply IH; [right; eauto|auto].
Qed.

Lemma span_spec : forall p s a b, span p s = (a, b) ->
  s = a ++ b /\ forallb p a = true /\ match b with [] => True | x :: _ => p x = false end.
Proof.
  induction s as [|x s IH]; simpl; intros a b H.
  - injection H as <- <-; auto.
  - destruct (p x) eqn:Hp.
    + destruct (span p s) as [a' b'] eqn:E. injection H as <- <-.
      destruct (IH a' b' eq_refl) as (-> & H2 & H3). simpl. rewrite Hp. auto.
    + injection H as <- <-; simpl; auto.
Qed.

Lemma span_app : forall p a b, forallb p a = true ->
  match b with [] => True | x :: _ => p x = false end -> span p (a ++ b) = (a, b).
Proof.
  induction a as [|x a IH]; simpl; intros b H Hb.
  - destruct b as [|y b]; [reflexivity|]. simpl. now rewrite Hb.
  - apply andb_true_iff in H as [Hx H]. rewrite Hx. now rewrite IH.
Qed.

Lemma break1_Some : forall c s a b, break1 c s = Some (a, b) <-> (s = a ++ c :: b /\ ~ In c a).
Proof.
  induction s as [|x s IH]; simpl; intros a b.
  - split; [discriminate|]. intros [H _]; destruct a; discriminate.
  - destruct (N.eqb_spec x c) as [->|Hne].
    + split.
      * intro H; injection H as <- <-; auto.
      * intros [H Hn]. destruct a as [|y a]; simpl in H; [injection H as ->; auto|].
        injection H as -> ->. simpl in Hn; tauto.
    + destruct (break1 c s) as [[a' b']|] eqn:E.
      * split.
        -- intro H; injection H as <- <-. destruct (proj1 (IH a' b') eq_refl) as [-> Hn].
           simpl; split; auto. intros [?|?]; auto.
        -- intros [H Hn]. destruct a as [|y a]; simpl in H; [injection H; congruence|]; injection H as -> H.
           assert (Some (a', b') = Some (a, b)) as Hab.
           { apply IH. split; auto. intro; apply Hn; now right. }
           injection Hab as -> ->. reflexivity.
      * split; [discriminate|].
        intros [H Hn]. destruct a as [|y a]; simpl in H; [injection H; congruence|]; injection H as -> H.
        assert (None = Some (a, b)) as Hab.
        { apply IH. split; auto. intro; apply Hn; now right. }
        discriminate.
Qed.

Lemma break1_None : forall c s, break1 c s = None <-> ~ In c s.
Proof.
  induction s as [|x s IH]; simpl.
  - tauto.
  - destruct (N.eqb_spec x c) as [->|Hne].
    + split; [discriminate|tauto].
    + destruct (break1 c s) as [[a b]|].
      * split; [discriminate|]. intro H. exfalso. apply H; right.
        destruct IH as [_ IH]. destruct (in_dec N.eq_dec c s); auto. now apply IH in n.
      * split; [|auto]. intros _ [?|?]; auto. now apply IH.
Qed.

Lemma rbreak1_spec : forall c s a b, rbreak1 c s = (a, b) ->
  s = a ++ b /\ ~ In c b /\ (a = [] \/ exists a', a = a' ++ [c]).
Proof.
  induction s as [|x s IH]; simpl; intros a b H.
  - injection H as <- <-; auto.
  - destruct (rbreak1 c s) as [a' b'] eqn:E. destruct (IH _ _ eq_refl) as (-> & Hn & Ha).
    destruct a' as [|y a'].
    + destruct (N.eqb_spec x c) as [->|Hne]; injection H as <- <-.
      * split; [reflexivity|]. split; auto. right; exists []; reflexivity.
      * split; [reflexivity|]. split; auto. simpl; intros [?|?]; auto.
    + injection H as <- <-. split; [reflexivity|]. split; auto. right.
      destruct Ha as [Ha|[a'' Ha]]; [discriminate|]. exists (x :: a''). rewrite Ha; reflexivity.
Qed.

Lemma forallb_app_iff : forall (p : N -> bool) a b,
  forallb p (a ++ b) = true <-> forallb p a = true /\ forallb p b = true.
Proof. intros; rewrite forallb_app, andb_true_iff; tauto. Qed.

Lemma lower1_idem : forall c, lower1 (lower1 c) = lower1 c.
Proof.
  intro c; unfold lower1, is_upper.
  destruct (N.leb_spec 65 c), (N.leb_spec c 90); simpl; auto;
  repeat match goal with |- context[(?a <=? ?b)] => destruct (N.leb_spec a b) end; simpl; auto; lia.
Qed.
Lemma lower_idem : forall s, lower (lower s) = lower s.
Proof. intro s; unfold lower; rewrite map_map; apply map_ext; apply lower1_idem. Qed.
