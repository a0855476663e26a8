(** * Feeding with a cursor writes what feeding the filled structure means *)
From Coq Require Import NArith ZArith String List Bool Lia Arith Permutation.
From Verif Require Import PyStr PyErr XsModel SerModel SerSpec SerStream SerPrint SerVisit SerRead SerTree SerNs SerTop SerDoc SerDocs SwModel SwSpec SwWrite SwNs SwProofs SwCoModel SwCoSpec.
Import ListNotations.
Open Scope N_scope.

Section CobjInd.
  Variable P : cobj -> Prop.
  Hypothesis HI : forall o, P (CItem o).
  Hypothesis HE : forall ns q a c, Forall P c -> P (CElem ns q a c).
  Hypothesis HC : forall ns q a, P (CCursor ns q a).
  Hypothesis HR : forall c, Forall P c -> P (CRoot c).
  Fixpoint cobj_ind2 (c : cobj) : P c :=
    let go := fix go l : Forall P l := match l with [] => Forall_nil _ | x :: l' => Forall_cons _ (cobj_ind2 x) (go l') end in
    match c with
    | CItem o => HI o
    | CElem ns q a l => HE ns q a l (go l)
    | CCursor ns q a => HC ns q a
    | CRoot l => HR l (go l)
    end.
End CobjInd.

(** The prefixes with which an item of the content is written. *)
Definition below (pr : pdict) (c : cobj) : pdict := match c with CItem _ => pr | _ => [] end.

Section S.
  Variable st : style.
  Variable enc : str.
  Variable vs : list obj.

  (** What the whole session writes for one object. *)
  Fixpoint cfeed (pre : pdict) (c : cobj) (p : printer) : result printer :=
    let all := fix all (pr : pdict) (l : list cobj) (p : printer) : result printer :=
      match l with [] => Ok p | x :: l' => do p1 <- cfeed (below pr x) x p ; all pr l' p1 end in
    match c with
    | CItem o => feed true st enc pre o p
    | CCursor ns q a =>
      do p1 <- start true st (new_prefixes pre ns q []) q a p ;
      do p2 <- feed_all true st enc [] vs p1 ; end_element st q p2
    | CElem ns q a content =>
      let new := new_prefixes pre ns q (map seen content) in
      do p1 <- start true st new q a p ;
      do p2 <- match lead_of (map seen content) with
               | Some x => if true_obj x then all (pupdate pre new) content p1 else Ok p1
               | None => Ok p1
               end ;
      end_element st q p2
    | CRoot _ => Err RuntimeError
    end.
  Fixpoint cfeed_all (pr : pdict) (l : list cobj) (p : printer) : result printer :=
    match l with [] => Ok p | x :: l' => do p1 <- cfeed (below pr x) x p ; cfeed_all pr l' p1 end.
  Lemma cfeed_fix : forall pr l p,
    (fix all (pr : pdict) (l : list cobj) (p : printer) : result printer :=
      match l with [] => Ok p | x :: l' => do p1 <- cfeed (below pr x) x p ; all pr l' p1 end) pr l p = cfeed_all pr l p.
  Proof.
    intros pr l. induction l as [|x l IH]; intro p; [reflexivity|]. cbn [cfeed_all].
    destruct (cfeed (below pr x) x p); cbn [bind]; [apply IH|reflexivity].
  Qed.
  Lemma run_fix : forall pr l p,
    (fix run (pr : pdict) (l : list cobj) (p : printer) : result (printer * list frame * list cobj) :=
      match l with
      | [] => Ok (p, [], [])
      | x :: l' =>
        do r <- match x with
                | CItem o => do p1 <- feed true st enc pr o p ; Ok (p1, [])
                | _ => costart true st enc [] x p
                end ;
        match snd r with
        | [] => run pr l' (fst r)
        | fs => Ok (fst r, fs, l')
        end
      end) pr l p = run true st enc pr l p.
  Proof.
    intros pr l. induction l as [|x l IH]; intro p; [reflexivity|]. cbn [run].
    match goal with |- (do r <- ?A ; _) = _ => destruct A as [[p1 fs]|e]; cbn [bind]; [|reflexivity] end.
    cbn [fst snd]. destruct fs; [apply IH|reflexivity].
  Qed.
  Lemma run_cons : forall pr x l p, run true st enc pr (x :: l) p =
    do r <- costart true st enc (below pr x) x p ;
    match snd r with [] => run true st enc pr l (fst r) | fs => Ok (fst r, fs, l) end.
  Proof. intros pr x l p. destruct x; reflexivity. Qed.

  Lemma coclose_app : forall a b p, coclose true st enc (a ++ b) p = bind (coclose true st enc a p) (coclose true st enc b).
  Proof.
    induction a as [|f a IH]; intros b p; [reflexivity|]. cbn [app coclose]. destruct f as [q|pr q l|l].
    - destruct (end_element st q p); cbn [bind]; [apply IH|reflexivity].
    - destruct (run true st enc pr l p) as [[[p1 fs] l']|e]; cbn [bind]; [|reflexivity].
      destruct fs; [|reflexivity]. destruct (end_element st q p1); cbn [bind]; [apply IH|reflexivity].
    - destruct (run true st enc [] l p) as [[[p1 fs] l']|e]; cbn [bind]; [|reflexivity].
      destruct fs; [|reflexivity]. destruct (end_document _ p1); cbn [bind]; [apply IH|reflexivity].
  Qed.

  (** The content is written: its first item is true. *)
  Inductive live : cobj -> Prop :=
  | lv_item : forall o, live (CItem o)
  | lv_cursor : forall ns q a, live (CCursor ns q a)
  | lv_elem : forall ns q a c, (forall x, lead_of (map seen c) = Some x -> true_obj x = true) -> Forall live c -> live (CElem ns q a c).

  (** The session on one object: without cursors it ends at once; with one it is
      suspended, and sending and closing do the rest. *)
  Definition session (pre : pdict) (c : cobj) : Prop := live c -> forall p p', cfeed pre c p = Ok p' ->
    (cursors c = 0%nat -> costart true st enc pre c p = Ok (p', [])) /\
    (cursors c = 1%nat -> exists p1 fs p2, costart true st enc pre c p = Ok (p1, fs) /\ fs <> [] /\
       feed_all true st enc [] vs p1 = Ok p2 /\ coclose true st enc fs p2 = Ok p').

  Lemma bind_ok : forall (A B : Type) (r : result A) (k : A -> result B) y, bind r k = Ok y -> exists x, r = Ok x /\ k x = Ok y.
  Proof. intros A B [x|e] k y H; [eauto|discriminate]. Qed.

  Lemma run_session : forall l, Forall (fun c => forall pre, session pre c) l -> Forall live l -> forall pr p p', cfeed_all pr l p = Ok p' ->
    (list_sum (map cursors l) = 0%nat -> run true st enc pr l p = Ok (p', [], [])) /\
    (list_sum (map cursors l) = 1%nat -> exists p1 fs p2 p3 rest, run true st enc pr l p = Ok (p1, fs, rest) /\ fs <> [] /\
       feed_all true st enc [] vs p1 = Ok p2 /\ coclose true st enc fs p2 = Ok p3 /\ run true st enc pr rest p3 = Ok (p', [], [])).
  Proof.
    induction 1 as [|x l Hx Hl IH]; intros HL pr p p' HF.
    - cbn [cfeed_all] in HF. injection HF as <-. split; [reflexivity|discriminate].
    - inversion HL; subst. cbn [cfeed_all] in HF. apply bind_ok in HF as (q & E1 & E2).
      match goal with H : live x |- _ => destruct (Hx _ H _ _ E1) as [A0 A1] end.
      match goal with H : Forall live l |- _ => destruct (IH H _ _ _ E2) as [B0 B1] end.
      cbn [map]. change (list_sum (cursors x :: map cursors l)) with (cursors x + list_sum (map cursors l))%nat. split; intro HS.
      + rewrite run_cons, A0 by lia. cbn [bind fst snd]. apply B0. lia.
      + destruct (cursors x) as [|[|?]] eqn:EC; [| |lia].
        * rewrite run_cons, A0 by reflexivity. cbn [bind fst snd]. apply B1. lia.
        * destruct (A1 eq_refl) as (p1 & fs & p2 & C1 & C2 & C3 & C4).
          exists p1, fs, p2, q, l. rewrite run_cons, C1. cbn [bind fst snd]. split; [destruct fs; [congruence|reflexivity]|].
          repeat split; auto.
  Qed.

  Lemma all_session : forall c pre, session pre c.
  Proof.
    induction c as [o|ns q a c IH|ns q a|c IH] using cobj_ind2; intros pre HL p p' HF.
    - split; [|discriminate]. intros _. cbn [costart cfeed] in *. rewrite HF. reflexivity.
    - inversion HL as [| |? ? ? ? Hlead Hc]; subst. cbn [cfeed] in HF. cbv zeta in HF. set (new := new_prefixes pre ns q (map seen c)) in *.
      apply bind_ok in HF as (p1 & E1 & HF). apply bind_ok in HF as (p2 & E2 & E3).
      cbn [cursors costart]. cbv zeta. fold new. rewrite E1. cbn [bind].
      destruct (lead_of (map seen c)) as [x|] eqn:EL.
      + rewrite (Hlead x eq_refl) in *. rewrite cfeed_fix in E2. rewrite run_fix.
        destruct (run_session c IH Hc _ _ _ E2) as [A0 A1]. split; intro HS.
        * rewrite A0 by exact HS. cbn [bind]. rewrite E3. reflexivity.
        * destruct (A1 HS) as (r1 & fs & r2 & r3 & rest & C1 & C2 & C3 & C4 & C5). rewrite C1. cbn [bind].
          exists r1, (fs ++ [FElem (pupdate pre new) q rest]), r2. split; [destruct fs; [congruence|reflexivity]|].
          split; [destruct fs; discriminate|]. split; [exact C3|]. rewrite coclose_app, C4. cbn [bind coclose].
          rewrite C5. cbn [bind]. rewrite E3. reflexivity.
      + assert (HZ : list_sum (map cursors c) = 0%nat).
        { clear - EL. induction c as [|y c IHc]; [reflexivity|]. cbn [map lead_of] in *. destruct y as [o| | |]; cbn [seen] in EL; try discriminate.
          destruct o; try discriminate. exact (IHc EL). }
        split; intro HS; [|lia]. cbn [bind]. injection E2 as ->. rewrite E3. reflexivity.
    - split; [discriminate|]. intros _. cbn [cfeed costart] in *. apply bind_ok in HF as (p1 & E1 & HF). apply bind_ok in HF as (p2 & E2 & E3).
      rewrite E1. cbn [bind]. exists p1, [FCursor q], p2. repeat split; auto; [discriminate|]. cbn [coclose]. rewrite E3. reflexivity.
    - inversion HL.
  Qed.

  Lemma cosends_feed : forall l p fs p', feed_all true st enc [] l p = Ok p' -> cosends true st enc l (p, fs) = Ok (p', fs).
  Proof.
    induction l as [|v l IH]; intros p fs p' H; cbn [feed_all cosends] in *; [now injection H as <-|].
    apply bind_ok in H as (p1 & E1 & E2). unfold cosend. cbn [fst snd]. rewrite E1. cbn [bind]. now apply IH.
  Qed.

  Lemma root_session : forall content p p1 p2 p', Forall live content -> list_sum (map cursors content) = 1%nat ->
    start_document (canon_of st) enc (lit "1.0") p = Ok p1 -> cfeed_all [] content p1 = Ok p2 -> end_document (canon_of st) p2 = Ok p' ->
    exists r r1, cofeed true st enc (CRoot content) p = Ok r /\ cosends true st enc vs r = Ok r1 /\ coclose true st enc (snd r1) (fst r1) = Ok p'.
  Proof.
    intros content p p1 p2 p' HL HS E1 E2 E3. destruct (run_session content) with (pr := @nil (str * str)) (p := p1) (p' := p2) as [_ A]; auto.
    { apply Forall_forall. intros. apply all_session. }
    destruct (A HS) as (r1 & fs & r2 & r3 & rest & C1 & C2 & C3 & C4 & C5).
    exists (r1, fs ++ [FRoot rest]), (r2, fs ++ [FRoot rest]). split; [|split; [now apply cosends_feed|]].
    - unfold cofeed. cbn [costart]. rewrite E1. cbn [bind]. rewrite run_fix, C1. cbn [bind]. destruct fs; [congruence|reflexivity].
    - cbn [fst snd]. rewrite coclose_app, C4. cbn [bind coclose]. rewrite C5. cbn [bind]. rewrite E3. reflexivity.
  Qed.
End S.
