(** * What the reader accepts, for given classes *)
From Coq Require Import NArith ZArith String List Bool Lia Arith Permutation.
From Verif Require Import PyStr PyErr DtdModel DtdSpec DtdDfa DtdProps SrModel SrSpec SrMatch SrAttrs.
Import ListNotations.
Local Open Scope nat_scope.

Lemma snode_ind2 (P : snode -> Prop) : (forall d, P (SText d)) -> (forall e kids, Forall P kids -> P (SElem e kids)) -> forall x, P x.
Proof.
  intros HT HE. fix IH 1. intros [d|e kids]; [apply HT|]. apply HE. induction kids as [|k kids IHk]; constructor; [apply IH|exact IHk].
Qed.

Lemma walk_app d : forall u v k, walk d k (u ++ v) = match walk d k u with Some k' => walk d k' v | None => None end.
Proof. induction u as [|e u IH]; intros v k; [reflexivity|]. cbn [walk app]. destruct (lookup (nth k d []) e); auto. Qed.

Section R.
Variable w : world.
Hypothesis G : good_world w.

(** ** The reader without the cache *)
Fixpoint rn (x : snode) (l : level) (r : reader) {struct x} : result (level * reader) :=
  match x with
  | SText data => do l1 <- characters l data ; Ok (l1, r)
  | SElem e kids =>
    do k <- find_class w l e ;
    do s <- start_element w l r e k ;
    do lr <- (fix go (ks : list snode) (l : level) (r : reader) : result (level * reader) :=
      match ks with [] => Ok (l, r) | k :: ks' => do lr <- rn k l r ; go ks' (fst lr) (snd lr) end) kids (snd (fst s)) (snd s) ;
    end_element w (fst (fst s)) (snd lr) e (fst lr)
  end.
Fixpoint rns (ks : list snode) (l : level) (r : reader) : result (level * reader) :=
  match ks with [] => Ok (l, r) | k :: ks' => do lr <- rn k l r ; rns ks' (fst lr) (snd lr) end.
Lemma rn_elem e kids l r : rn (SElem e kids) l r =
  do k <- find_class w l e ; do s <- start_element w l r e k ; do lr <- rns kids (snd (fst s)) (snd s) ; end_element w (fst (fst s)) (snd lr) e (fst lr).
Proof. reflexivity.
Qed.

(** ** The automata *)
Lemma compile_ok m : proper m -> exists d, compile (w_order w) m = Ok d /\ (forall v, accepts d v = true <-> matches m v) /\
  (inhabited m -> forall v, ~ In EFinal v -> walk d 0 v <> None <-> exists u, matches m (v ++ u)).
Proof.
  intros P. destruct G as [O _]. destruct (compile_spec (w_order w) O m P) as (d & C & A & _ & V). exists d. auto.
Qed.
Definition step (kd : kind) (d : dfa) (k : nat) (i : item) : option nat :=
  match lookup (nth k d []) (event_of i) with
  | Some k' => Some k'
  | None => match kd, i with KUndefinedExt, IText => None | KUndefinedExt, _ => Some k | _, _ => None end
  end.
Fixpoint advance (kd : kind) (d : dfa) (k : nat) (l : list item) : option nat :=
  match l with [] => Some k | i :: l' => match step kd d k i with Some k' => advance kd d k' l' | None => None end end.
Lemma advance_walk kd d : kd <> KUndefinedExt -> forall l k, advance kd d k l = walk d k (map event_of l).
Proof.
  intros N. induction l as [|i l IH]; intros k; [reflexivity|]. cbn [advance walk map]. unfold step. destruct (lookup (nth k d []) (event_of i)); [apply IH|]. destruct kd; congruence.
Qed.
(** Where an element is complete. *)
Definition complete (d : dfa) (k : nat) : Prop := lookup (nth k d []) EFinal <> None.
Lemma walk_final d k k' v : walk d k v = Some k' -> (complete d k' <-> walk d k (v ++ [EFinal]) <> None).
Proof. intros H. rewrite walk_app, H. unfold complete. cbn [walk]. destruct (lookup (nth k' d []) EFinal); split; congruence. Qed.
Lemma inhabited_template : inhabited m_template.
Proof. cbn. intuition discriminate. Qed.
Lemma not_final i : event_of i <> EFinal.
Proof. discriminate. Qed.
(** In an undefined extension element anything goes. *)
Lemma undefined_goes d : compile (w_order w) m_template = Ok d -> forall l k v, Forall plain_item l -> walk d 0 v = Some k -> Forall ev_template v ->
  exists k', advance KUndefinedExt d k l = Some k' /\ complete d k'.
Proof.
  intros C. destruct (compile_ok m_template template_proper) as (d' & C' & A & V). rewrite C in C'. injection C' as <-. specialize (V inhabited_template).
  induction l as [|i l IH]; intros k v F W T.
  - exists k. split; [reflexivity|]. apply (walk_final d 0 k v W). assert (accepts d v = true) as AC by (apply A; apply m_template_iff; exact T).
    unfold accepts in AC. destruct (walk d 0 (v ++ [EFinal])); [discriminate|discriminate].
  - inversion F as [|i' l' P1 P2]; subst. cbn [advance]. unfold step. destruct (lookup (nth k d []) (event_of i)) as [k1|] eqn:L.
    + assert (walk d 0 (v ++ [event_of i]) = Some k1) as W1 by (rewrite walk_app, W; cbn [walk]; rewrite L; reflexivity).
      apply (IH k1 (v ++ [event_of i]) P2 W1). assert (NF : ~ In EFinal (v ++ [event_of i])).
      { intros Q. apply in_app_iff in Q. destruct Q as [Q|[Q|[]]]; [|exact (not_final _ Q)]. rewrite Forall_forall in T. destruct (T _ Q) as [E|[(n & _ & E)|E]]; discriminate. }
      assert (exists u, matches m_template ((v ++ [event_of i]) ++ u)) as (u & M) by (apply (V _ NF); congruence).
      apply m_template_iff in M. apply Forall_app in M. apply M.
    + destruct i as [|n|].
      * exfalso. assert (matches m_template (v ++ [event_of IText])) as M. { apply m_template_iff. apply Forall_app. split; [exact T|]. constructor; [left; reflexivity|constructor]. }
        apply A in M. unfold accepts in M. rewrite <- app_assoc in M. rewrite walk_app, W in M. cbn [walk app] in M. rewrite L in M. discriminate.
      * apply (IH k v P2 W T).
      * apply (IH k v P2 W T).
Qed.
Lemma plain_items p l : Forall plain_item (map (item_of w p) l).
Proof.
  induction l as [|x l IH]; constructor; [|exact IH]. destruct x as [d|e kids]; [exact Logic.I|]. cbn [item_of]. unfold role_of. destruct (in_xsl e).
  - destruct (row attribute_table (e_local e)) eqn:R; [exact (row_plain _ _ R)|]. destruct (x_fc p); exact Logic.I.
  - destruct (existsb _ _); [destruct (w_ext w (e_ns e) (e_local e)) as [[? ?]|]|]; exact Logic.I.
Qed.
Lemma content_iff p e r d l : role_of w p e = Some r -> compile (w_order w) (model_of r) = Ok d -> Forall plain_item l ->
  ((exists k, advance (kind_of r) d 0 l = Some k /\ complete d k) <-> content_ok r l).
Proof.
  intros Er C F. destruct (compile_ok (model_of r) (role_proper w p e r G Er)) as (d' & C' & A & _). rewrite C in C'. injection C' as <-.
  assert (kind_of r <> KUndefinedExt -> ((exists k, advance (kind_of r) d 0 l = Some k /\ complete d k) <-> matches (model_of r) (map event_of l))) as K.
  { intros N. rewrite <- A. rewrite (advance_walk _ _ N). unfold accepts. split.
    - intros (k & W & Q). apply (walk_final _ _ _ _ W) in Q. destruct (walk d 0 (map event_of l ++ [EFinal])); [reflexivity|congruence].
    - intros Q. destruct (walk d 0 (map event_of l)) as [k|] eqn:W.
      + exists k. split; [reflexivity|]. apply (walk_final _ _ _ _ W). destruct (walk d 0 (map event_of l ++ [EFinal])); [discriminate|discriminate].
      + rewrite walk_app, W in Q. discriminate. }
  destruct r as [n| |m ts| |]; cbn [kind_of content_ok] in *.
  - rewrite K by discriminate. cbn [model_of]. assert (row attribute_table n <> None) as R.
    { unfold role_of in Er. destruct (in_xsl e); [|destruct (existsb _ _); [destruct (w_ext w (e_ns e) (e_local e)) as [[? ?]|]|]; discriminate].
      destruct (row attribute_table (e_local e)) eqn:R; [|destruct (x_fc p); discriminate]. injection Er as <-. congruence. }
    pose proof (class_row n) as CR. destruct (m_class n) as [[m ts]|]; [|contradiction]. destruct CR as (_ & _ & CR). apply CR. exact F.
  - rewrite K by discriminate. apply template_items. exact F.
  - rewrite K by discriminate. reflexivity.
  - split; [auto|]. intros _. apply (undefined_goes d C l 0 []); auto.
  - rewrite K by discriminate. apply template_items. exact F.
Qed.

(** ** What reading does *)
Fixpoint nsize (x : snode) : nat := match x with SText _ => 0 | SElem _ kids => S ((fix all (ks : list snode) : nat := match ks with [] => 0 | k :: ks' => nsize k + all ks' end) kids) end.
Fixpoint nsizes (ks : list snode) : nat := match ks with [] => 0 | k :: ks' => nsize k + nsizes ks' end.
Lemma nsize_elem e kids : nsize (SElem e kids) = S (nsizes kids).
Proof. reflexivity. Qed.
(** The nodes, with insertChild as it is. *)
Definition wrap (own : bool) (nodes : list xnode) : list xnode := if own then insert_first w nodes XPush ++ [XPop] else nodes.
Definition any_declared (kids : list snode) : bool := match declared w kids with [] => false | _ => true end.
Fixpoint made (x : snode) : xnode :=
  match x with
  | SText data => XText data
  | SElem e kids => XElem e (wrap (any_declared kids) ((fix all (ks : list snode) : list xnode := match ks with [] => [] | k :: ks' => made k :: all ks' end) kids))
  end.
Lemma made_elem e kids : made (SElem e kids) = XElem e (wrap (any_declared kids) (map made kids)).
Proof. reflexivity. Qed.
Fixpoint corrects (p : place) (ks : list snode) : Prop := match ks with [] => True | k :: ks' => correct w p k /\ corrects p ks' end.
Lemma correct_elem p e kids : correct w p (SElem e kids) <->
  exists r, role_of w p e = Some r /\ attributes_ok w p e r /\ namespace_ok w p e r /\ content_ok r (map (item_of w (inside w p e r)) kids) /\ corrects (inside w p e r) kids.
Proof.
  cbn [correct]. destruct (role_of w p e) as [r|]; [|split; [tauto|intros (r & C & _); discriminate]].
  assert (forall q, (fix all (ks : list snode) : Prop := match ks with [] => True | k :: ks' => correct w q k /\ all ks' end) kids <-> corrects q kids) as Q.
  { intros q. induction kids as [|k kids IH]; [reflexivity|]. cbn [corrects]. rewrite <- IH. reflexivity. }
  rewrite Q. split; [intros H; exists r; tauto|intros (r' & E & H); injection E as <-; tauto].
Qed.
Lemma corrects_forall p ks : corrects p ks <-> Forall (correct w p) ks.
Proof. induction ks as [|k ks IH]; [split; [constructor|exact (fun _ => Logic.I)]|]. cbn [corrects]. rewrite IH, Forall_cons_iff. reflexivity. Qed.
Fixpoint unshadoweds (vars : list str) (ks : list snode) : Prop :=
  match ks with
  | [] => True
  | k :: ks' => unshadowed w vars k /\ match declares w k with Some n => ~ In n vars /\ unshadoweds (n :: vars) ks' | None => unshadoweds vars ks' end
  end.
Lemma unshadowed_elem vars e kids : unshadowed w vars (SElem e kids) <-> unshadoweds vars kids.
Proof.
  cbn [unshadowed]. revert vars. induction kids as [|k kids IH]; intros vars; [reflexivity|]. cbn [unshadoweds]. destruct (declares w k) as [n|]; rewrite <- IH; reflexivity.
Qed.
(** Variables of the siblings: locals, or globals at the top. *)
Fixpoint sibling_vars (top : bool) (vars globals : list str) (ks : list snode) : Prop :=
  match ks with
  | [] => True
  | k :: ks' =>
    unshadowed w vars k /\
    match declares w k with
    | Some n => if top then ~ In n globals /\ sibling_vars top vars (n :: globals) ks' else ~ In n vars /\ sibling_vars top (n :: vars) globals ks'
    | None => sibling_vars top vars globals ks'
    end
  end.
Lemma sibling_local vars globals ks : sibling_vars false vars globals ks <-> unshadoweds vars ks.
Proof. revert vars. induction ks as [|k ks IH]; intros vars; [reflexivity|]. cbn [sibling_vars unshadoweds]. destruct (declares w k); rewrite IH; reflexivity. Qed.
Lemma declared_cons k ks : declared w (k :: ks) = match declares w k with Some n => n :: declared w ks | None => declared w ks end.
Proof. unfold declared. cbn [flat_map]. destruct (declares w k); reflexivity. Qed.
Lemma sibling_global vars globals ks : sibling_vars true vars globals ks <-> Forall (unshadowed w vars) ks /\ NoDup (declared w ks) /\ forall n, In n (declared w ks) -> ~ In n globals.
Proof.
  revert globals. induction ks as [|k ks IH]; intros globals.
  - cbn. split; [intros _; repeat split; [constructor|constructor|intros n []]|auto].
  - cbn [sibling_vars]. rewrite declared_cons. destruct (declares w k) as [n|].
    + rewrite IH, Forall_cons_iff, NoDup_cons_iff. cbn [In]. split.
      * intros (H1 & H2 & H3 & H4 & H5). split; [auto|]. split; [split; [|exact H4]; intros C; apply (H5 n C); auto|]. intros m [<-|M]; [exact H2|]. intros C. apply (H5 m M). auto.
      * intros ((H1 & H2) & (H3 & H4) & H5). split; [exact H1|]. split; [apply H5; auto|]. split; [exact H2|]. split; [exact H4|]. intros m M [<-|C]; [contradiction|]. apply (H5 m); auto.
    + rewrite IH, Forall_cons_iff. tauto.
Qed.

Definition node_ok (x : snode) : Prop := everywhere distinct_attributes x /\ everywhere no_sheet x.
Fixpoint everywheres (P : elem -> Prop) (ks : list snode) : Prop := match ks with [] => True | k :: ks' => everywhere P k /\ everywheres P ks' end.
Lemma everywhere_elem P e kids : everywhere P (SElem e kids) <-> P e /\ Forall (everywhere P) kids.
Proof.
  cbn [everywhere]. assert ((fix all (ks : list snode) : Prop := match ks with [] => True | k :: ks' => everywhere P k /\ all ks' end) kids <-> Forall (everywhere P) kids) as Q; [|rewrite Q; reflexivity].
  induction kids as [|k kids IH]; [split; [constructor|exact (fun _ => Logic.I)]|]. rewrite Forall_cons_iff, <- IH. reflexivity.
Qed.

(** The state of the parent after a node. *)
Definition after (top : bool) (l : level) (x : snode) (k : nat) : level :=
  let l1 := append (at_state l k) (made x) in
  match declares w x with Some n => if top then l1 else bind_local l1 n | None => l1 end.
Definition after_reader (top : bool) (r : reader) (x : snode) : reader :=
  {| r_next := r_next r + nsize x; r_sheet := r_sheet r; r_globals := match declares w x with Some n => if top then n :: r_globals r else r_globals r | None => r_globals r end |}.
Definition declaration_ok (top : bool) (l : level) (r : reader) (x : snode) : Prop :=
  match declares w x with Some n => if top then ~ In n (r_globals r) else ~ In n (l_vars l) | None => True end.
Definition related (l : level) (r : reader) (p : place) : Prop :=
  l_fc l = x_fc p /\ l_exts l = x_exts p /\ l_kind l <> KRoot /\
  (match r_sheet r with Some s => s =? l_id l | None => false end) = x_top p /\
  (forall s, r_sheet r = Some s -> s < r_next r).
Definition reads (x : snode) : Prop := forall l r p l' r', related l r p ->
  (rn x l r = Ok (l', r') <-> exists k, step (l_kind l) (l_dfa l) (l_at l) (item_of w p x) = Some k /\ correct w p x /\ unshadowed w (l_vars l) x /\
     declaration_ok (x_top p) l r x /\ l' = after (x_top p) l x k /\ r' = after_reader (x_top p) r x).
Definition afters (top : bool) (l : level) (ks : list snode) (k : nat) : level :=
  {| l_id := l_id l; l_kind := l_kind l; l_dfa := l_dfa l; l_at := k;
     l_vars := if top then l_vars l else rev (declared w ks) ++ l_vars l; l_own := if top then l_own l else l_own l || any_declared ks;
     l_fc := l_fc l; l_exts := l_exts l; l_nodes := l_nodes l ++ map made ks |}.
Definition afters_reader (top : bool) (r : reader) (ks : list snode) : reader :=
  {| r_next := r_next r + nsizes ks; r_sheet := r_sheet r; r_globals := if top then rev (declared w ks) ++ r_globals r else r_globals r |}.
Lemma related_after top l r p x k : related l r p -> related (after top l x k) (after_reader top r x) p.
Proof.
  intros (F & X & K & T & S). unfold after, after_reader, related. destruct (declares w x); [destruct top|]; cbn [l_fc l_exts l_kind l_id r_sheet r_next append at_state bind_local];
    (split; [exact F|]; split; [exact X|]; split; [exact K|]; split; [exact T|]; intros s Q; specialize (S s Q); lia).
Qed.
Lemma afters_nil top l r : afters top l [] (l_at l) = l /\ afters_reader top r [] = r.
Proof.
  unfold afters, afters_reader. cbn. rewrite Nat.add_0_r, app_nil_r, orb_false_r. destruct l, r, top; auto.
Qed.
Lemma afters_cons top l r k ks a b : afters top (after top l k a) ks b = afters top l (k :: ks) b /\ afters_reader top (after_reader top r k) ks = afters_reader top r (k :: ks).
Proof.
  unfold afters, afters_reader, after, after_reader, any_declared. destruct ks as [|k2 ks].
  - cbn [map nsizes]. rewrite declared_cons. change (declared w []) with (@nil str).
    destruct (declares w k) as [n|]; [destruct top|]; cbn [l_id l_kind l_dfa l_at l_vars l_own l_fc l_exts l_nodes append at_state bind_local r_next r_sheet r_globals rev app];
      rewrite ?app_nil_r, ?orb_false_r, ?orb_true_r, ?Nat.add_0_r; auto.
  - cbn [map nsizes]. rewrite (declared_cons k). destruct (declares w k) as [n|]; [destruct top|]; cbn [l_id l_kind l_dfa l_at l_vars l_own l_fc l_exts l_nodes append at_state bind_local r_next r_sheet r_globals];
      (split; f_equal; cbn [rev]; rewrite <- ?app_assoc, ?orb_true_r; cbn [app orb]; rewrite ?Nat.add_assoc; auto).
Qed.
Lemma rns_iff ks : Forall reads ks -> forall l r p l' r', related l r p ->
  (rns ks l r = Ok (l', r') <-> exists k, advance (l_kind l) (l_dfa l) (l_at l) (map (item_of w p) ks) = Some k /\ corrects p ks /\
     sibling_vars (x_top p) (l_vars l) (r_globals r) ks /\ l' = afters (x_top p) l ks k /\ r' = afters_reader (x_top p) r ks).
Proof.
  induction 1 as [|x ks Hx Hks IH]; intros l r p l' r' R.
  - cbn [rns map advance corrects sibling_vars]. destruct (afters_nil (x_top p) l r) as [E1 E2]. split.
    + intros H. injection H as <- <-. exists (l_at l). rewrite E1, E2. auto.
    + intros (k & K & _ & _ & -> & ->). injection K as <-. rewrite E1, E2. reflexivity.
  - cbn [rns map advance corrects sibling_vars]. rewrite bind_ok. split.
    + intros ([l1 r1] & H1 & H2). cbn [fst snd] in H2. apply (Hx _ _ _ _ _ R) in H1. destruct H1 as (a & S & C & U & D & -> & ->).
      apply (IH _ _ p) in H2; [|apply related_after; exact R]. destruct H2 as (b & A & Cs & V & -> & ->). rewrite S. destruct (afters_cons (x_top p) l r x ks a b) as [-> ->].
      exists b. assert (l_kind (after (x_top p) l x a) = l_kind l /\ l_dfa (after (x_top p) l x a) = l_dfa l /\ l_at (after (x_top p) l x a) = a) as (E1 & E2 & E3).
      { unfold after. destruct (declares w x); [destruct (x_top p)|]; auto. }
      rewrite E1, E2, E3 in A. split; [exact A|]. split; [auto|]. split; [|auto]. split; [exact U|]. unfold declaration_ok in D. unfold after, after_reader in V.
      destruct (declares w x) as [n|]; [destruct (x_top p)|]; cbn [r_globals l_vars append at_state bind_local] in V; auto.
    + intros (b & A & (C & Cs) & (U & V) & -> & ->). destruct (step (l_kind l) (l_dfa l) (l_at l) (item_of w p x)) as [a|] eqn:S; [|discriminate].
      exists (after (x_top p) l x a, after_reader (x_top p) r x). cbn [fst snd]. split.
      * apply (Hx _ _ _ _ _ R). exists a. split; [exact S|]. split; [exact C|]. split; [exact U|]. split; [|auto]. unfold declaration_ok. destruct (declares w x); [destruct (x_top p); tauto|exact Logic.I].
      * apply (IH _ _ p); [apply related_after; exact R|]. exists b. assert (l_kind (after (x_top p) l x a) = l_kind l /\ l_dfa (after (x_top p) l x a) = l_dfa l /\ l_at (after (x_top p) l x a) = a) as (E1 & E2 & E3).
        { unfold after. destruct (declares w x); [destruct (x_top p)|]; auto. }
        rewrite E1, E2, E3. split; [exact A|]. split; [exact Cs|]. destruct (afters_cons (x_top p) l r x ks a b) as [-> ->]. split; [|auto].
        unfold after, after_reader. destruct (declares w x) as [n|]; [destruct (x_top p)|]; cbn [r_globals l_vars append at_state bind_local]; tauto.
Qed.

(** ** The events *)
Lemma start_iff l r p e q d s : related l r p -> distinct_attributes e -> no_sheet e -> role_of w p e = Some q ->
  (start_element w l r e (entry_of q d) = Ok s <->
   exists k, step (l_kind l) (l_dfa l) (l_at l) (match q with RXsl n => IXsl n | _ => IResult end) = Some k /\ attributes_ok w p e q /\ namespace_ok w p e q /\
     s = (at_state l k,
          {| l_id := r_next r; l_kind := kind_of q; l_dfa := d; l_at := 0; l_vars := l_vars l; l_own := false; l_fc := x_fc (inside w p e q); l_exts := x_exts (inside w p e q); l_nodes := [] |},
          {| r_next := S (r_next r); r_sheet := r_sheet r; r_globals := r_globals r |})).
Proof.
  intros (F & X & K & T & S) ND NS Eq. unfold start_element. cbn [c_token c_kind c_dfa entry_of]. rewrite bind_ok.
  assert (forall l1, (match lookup (nth (l_at l) (l_dfa l) []) (EName (token_of q)) with Some k => Ok (at_state l k) | None => match l_kind l with KUndefinedExt => Ok l | _ => static (l_kind l) ILLEGAL_ELEMENT_CHILD end end) = Ok l1 <->
    exists k, step (l_kind l) (l_dfa l) (l_at l) (match q with RXsl n => IXsl n | _ => IResult end) = Some k /\ l1 = at_state l k) as ST.
  { intros l1. unfold step. replace (event_of (match q with RXsl n => IXsl n | _ => IResult end)) with (EName (token_of q)) by (destruct q; reflexivity).
    destruct (lookup (nth (l_at l) (l_dfa l) []) (EName (token_of q))) as [k|].
    - split; [intros H; injection H as <-; eauto|intros (k' & E & ->); injection E as <-; reflexivity].
    - replace (match l_kind l, match q with RXsl n => IXsl n | _ => IResult end with KUndefinedExt, IText => None | KUndefinedExt, _ => Some (l_at l) | _, _ => None end) with (match l_kind l with KUndefinedExt => Some (l_at l) | _ => None end) by (destruct (l_kind l), q; reflexivity).
      destruct (l_kind l) eqn:Kd; cbn [static]; try (split; [discriminate|intros (k & E & _); discriminate]).
      split; [intros H; injection H as <-; exists (l_at l); split; [reflexivity|]; destruct l; cbn in *; subst; reflexivity|].
      intros (k & E & ->). injection E as <-. destruct l; cbn in *; subst; reflexivity. }
  rewrite F, X.
  assert (is_sheet (kind_of q) = false) as SH.
  { destruct (is_sheet (kind_of q)) eqn:SH; [|reflexivity]. exfalso. apply NS. unfold role_of in Eq. destruct q as [n| | | |]; try discriminate. destruct (in_xsl e) eqn:IX.
    - destruct (row attribute_table (e_local e)); [|destruct (x_fc p); discriminate]. injection Eq as <-. split; [exact IX|]. cbn [is_sheet kind_of] in SH. apply orb_prop in SH. unfold sheet_name. rewrite !str_eqb_eq in SH. exact SH.
    - destruct (existsb _ _); [destruct (w_ext w (e_ns e) (e_local e)) as [[? ?]|]|]; discriminate. }
  rewrite SH.
  assert (forall m : mode, (match kind_of q, r_sheet r with KLiteral, Some s0 => if (s0 =? l_id l) && match e_ns e with None | Some [] => true | _ => false end && negb (fst m) then static (l_kind l) ILLEGAL_ELEMENT_CHILD else Ok tt | _, _ => Ok tt end) = Ok tt <->
     (kind_of q = KLiteral -> x_top p = true -> fst m = false -> exists u, e_ns e = Some u /\ u <> [])) as NM.
  { intros m. destruct (kind_of q) eqn:Kq; try (split; [intros _ C; discriminate|reflexivity]). destruct (r_sheet r) as [s0|] eqn:Rs.
    - rewrite T. destruct (x_top p); cbn [andb]; [|split; [intros _ _ C; discriminate|reflexivity]]. destruct (fst m); cbn [negb]; [rewrite andb_false_r; split; [intros _ _ _ C; discriminate|reflexivity]|].
      rewrite andb_true_r. destruct (e_ns e) as [[|c u]|].
      + split; [destruct (l_kind l); discriminate|]. intros H. destruct (H eq_refl eq_refl eq_refl) as (u' & Eu & Nu). congruence.
      + split; [|reflexivity]. intros _ _ _ _. exists (c :: u). split; [reflexivity|discriminate].
      + split; [destruct (l_kind l); discriminate|]. intros H. destruct (H eq_refl eq_refl eq_refl) as (u' & Eu & Nu). congruence.
    - split; [|reflexivity]. intros _ _ Q. congruence. }
  assert (namespace_ok w p e q <-> (kind_of q = KLiteral -> x_top p = true -> x_fc (inside w p e q) = false -> exists u, e_ns e = Some u /\ u <> [])) as NO.
  { destruct q; cbn [namespace_ok kind_of]; try (split; [intros _ C; discriminate|exact (fun _ => Logic.I)]). split; auto. }
  split.
  - intros (l1 & H1 & H2). apply ST in H1. destruct H1 as (k & Sk & ->). apply bind_ok in H2. destruct H2 as (m & H2 & H3). apply (attributes_iff w p e q d m ND Eq) in H2. destruct H2 as [H2 ->].
    apply bind_ok in H3. destruct H3 as ([] & H3 & H4). injection H4 as <-. pose proof (proj1 (NM _) H3) as H3b. exists k. cbn [fst snd] in *. split; [exact Sk|]. split; [exact H2|]. split; [apply NO; exact H3b|reflexivity].
  - intros (k & Sk & A & N & ->). exists (at_state l k). split; [apply ST; eauto|]. apply bind_ok. exists (x_fc (inside w p e q), x_exts (inside w p e q)). split; [apply (attributes_iff w p e q d _ ND Eq); auto|].
    apply bind_ok. exists tt. split; [apply NM; apply NO; exact N|reflexivity].
Qed.
Lemma role_variable p e q kids : role_of w p e = Some q -> is_variable (kind_of q) = match declares w (SElem e kids) with Some _ => true | None => false end.
Proof.
  unfold role_of, declares. destruct (in_xsl e); cbn [andb].
  - destruct (row attribute_table (e_local e)) eqn:R.
    + intros H. injection H as <-. cbn [kind_of is_variable]. destruct (_ || _); reflexivity.
    + destruct (x_fc p); [|discriminate]. intros H. injection H as <-. cbn [kind_of is_variable]. destruct (_ || _) eqn:V; [|reflexivity].
      apply orb_prop in V. destruct V as [V|V]; apply str_eqb_eq in V; rewrite V in R; vm_compute in R; discriminate.
  - destruct (existsb _ _); [destruct (w_ext w (e_ns e) (e_local e)) as [[? ?]|]|]; intros H; injection H as <-; reflexivity.
Qed.
Lemma finish_iff c e nodes : finish w c e = Ok nodes <-> complete (l_dfa c) (l_at c) /\ nodes = wrap (l_own c) (l_nodes c).
Proof.
  unfold finish, complete, wrap. destruct (lookup (nth (l_at c) (l_dfa c) []) EFinal).
  - split; [intros H; injection H as <-; split; [discriminate|reflexivity]|intros [_ ->]; reflexivity].
  - split; [destruct (_ && _); discriminate|intros [C _]; congruence].
Qed.
Lemma end_iff l r e c l' r' top kids : (match r_sheet r with Some s => s =? l_id l | None => false end) = top ->
  is_variable (l_kind c) = (match declares w (SElem e kids) with Some _ => true | None => false end) ->
  (end_element w l r e c = Ok (l', r') <-> complete (l_dfa c) (l_at c) /\ declaration_ok top l r (SElem e kids) /\
     l' = (let l1 := append l (XElem e (wrap (l_own c) (l_nodes c))) in match declares w (SElem e kids) with Some n => if top then l1 else bind_local l1 n | None => l1 end) /\
     r' = {| r_next := r_next r; r_sheet := r_sheet r; r_globals := match declares w (SElem e kids) with Some n => if top then n :: r_globals r else r_globals r | None => r_globals r end |}).
Proof.
  intros T V. unfold end_element. rewrite bind_ok, V, T. unfold declaration_ok.
  assert (forall n, declares w (SElem e kids) = Some n -> n = variable_name w e) as VN.
  { intros n. unfold declares. destruct (in_xsl e && _); [|discriminate]. intros H. injection H as <-. reflexivity. }
  split.
  - intros (nodes & H1 & H2). apply finish_iff in H1. destruct H1 as [Cm ->]. split; [exact Cm|].
    destruct (declares w (SElem e kids)) as [n|].
    + rewrite <- (VN n eq_refl) in H2. destruct top.
      * destruct (one_of (r_globals r) n) eqn:O; [discriminate|]. apply one_of_not_in in O. injection H2 as <- <-. auto.
      * destruct (one_of (l_vars l) n) eqn:O; [discriminate|]. apply one_of_not_in in O. injection H2 as <- <-. destruct r; auto.
    + injection H2 as <- <-. destruct r; auto.
  - intros (Cm & D & -> & ->). exists (wrap (l_own c) (l_nodes c)). split; [apply finish_iff; auto|].
    destruct (declares w (SElem e kids)) as [n|].
    + rewrite <- (VN n eq_refl). destruct top.
      * apply one_of_not_in in D. rewrite D. reflexivity.
      * apply one_of_not_in in D. rewrite D. destruct r; reflexivity.
    + destruct r; reflexivity.
Qed.
Lemma role_no_sheet p e q : role_of w p e = Some q -> no_sheet e -> x_top (inside w p e q) = false.
Proof.
  intros Eq NS. cbn [x_top inside]. destruct q as [n| | | |]; try reflexivity. destruct (_ || _) eqn:SH; [|reflexivity]. exfalso. apply NS. unfold role_of in Eq. destruct (in_xsl e) eqn:IX.
  - destruct (row attribute_table (e_local e)); [|destruct (x_fc p); discriminate]. injection Eq as <-. split; [exact IX|]. apply orb_prop in SH. unfold sheet_name. rewrite !str_eqb_eq in SH. exact SH.
  - destruct (existsb _ _); [destruct (w_ext w (e_ns e) (e_local e)) as [[? ?]|]|]; discriminate.
Qed.
Theorem reads_all : forall x, node_ok x -> reads x.
Proof.
  induction x as [data|e kids IH] using snode_ind2; intros [OK1 OK2] l r p l' r' R.
  - cbn [rn item_of correct unshadowed]. unfold characters, declaration_ok, after, after_reader, step. cbn [declares nsize made event_of]. change (event_of IText) with (EName TEXT_NODE).
    destruct R as (_ & _ & K & _). rewrite Nat.add_0_r. destruct (lookup (nth (l_at l) (l_dfa l) []) (EName TEXT_NODE)) as [k|]; cbn [bind].
    + split; [intros H; injection H as <- <-; exists k; destruct r; repeat split; auto|intros (k' & E & _ & _ & _ & -> & ->); injection E as <-; destruct r; reflexivity].
    + split; [unfold static; destruct (l_kind l); discriminate|intros (k & E & _); destruct (l_kind l); discriminate].
  - apply everywhere_elem in OK1. destruct OK1 as [ND OKs1]. apply everywhere_elem in OK2. destruct OK2 as [NS OKs2].
    assert (Forall reads kids) as Rk. { rewrite Forall_forall in *. intros k Ik. apply IH; [exact Ik|]. split; auto. }
    pose proof R as (F & X & K & T & S).
    rewrite rn_elem, bind_ok.
    assert (forall q d, role_of w p e = Some q -> related {| l_id := r_next r; l_kind := kind_of q; l_dfa := d; l_at := 0; l_vars := l_vars l; l_own := false; l_fc := x_fc (inside w p e q); l_exts := x_exts (inside w p e q); l_nodes := [] |}
      {| r_next := Datatypes.S (r_next r); r_sheet := r_sheet r; r_globals := r_globals r |} (inside w p e q)) as RC.
    { intros q d Eq. pose proof (role_no_sheet p e q Eq NS) as TF. unfold related. cbn [l_fc l_exts l_kind l_id r_sheet r_next]. split; [reflexivity|]. split; [reflexivity|]. split; [destruct q; discriminate|]. split.
      - rewrite TF. destruct (r_sheet r) as [s|] eqn:Rs; [|reflexivity]. specialize (S s eq_refl). apply Nat.eqb_neq. lia.
      - intros s Q. specialize (S s Q). lia. }
    assert (forall k b q d c1, c1 = {| l_id := r_next r; l_kind := kind_of q; l_dfa := d; l_at := 0; l_vars := l_vars l; l_own := false; l_fc := x_fc (inside w p e q); l_exts := x_exts (inside w p e q); l_nodes := [] |} -> role_of w p e = Some q ->
      (end_element w (at_state l k) (afters_reader false {| r_next := Datatypes.S (r_next r); r_sheet := r_sheet r; r_globals := r_globals r |} kids) e (afters false c1 kids b) = Ok (l', r') <->
       complete d b /\ declaration_ok (x_top p) l r (SElem e kids) /\ l' = after (x_top p) l (SElem e kids) k /\ r' = after_reader (x_top p) r (SElem e kids))) as EE.
    { intros k b q d c1 -> Eq. rewrite (end_iff _ _ e _ l' r' (x_top p) kids); [|exact T|exact (role_variable p e q kids Eq)].
      unfold declaration_ok, after, after_reader. cbn [afters afters_reader l_dfa l_at l_vars l_own l_nodes l_kind r_next r_sheet r_globals at_state orb app]. rewrite made_elem, nsize_elem.
      replace (Datatypes.S (r_next r) + nsizes kids) with (r_next r + Datatypes.S (nsizes kids)) by lia. reflexivity. }
    split.
    + intros (en & H1 & H2). apply (find_class_iff w l p e en F X) in H1. destruct H1 as (q & d & Eq & C & ->).
      apply bind_ok in H2. destruct H2 as (s & H2 & H3). apply (start_iff l r p e q d s R ND NS Eq) in H2. destruct H2 as (k & Sk & A & N & ->). cbn [fst snd] in H3.
      apply bind_ok in H3. destruct H3 as ([c1 r1] & H3 & H4). pose proof (RC q d Eq) as Rc. apply (rns_iff kids Rk _ _ _ _ _ Rc) in H3. rewrite (role_no_sheet p e q Eq NS) in H3. destruct H3 as (b & Ad & Cs & V & -> & ->).
      cbn [fst snd] in H4. apply (EE k b q d _ eq_refl Eq) in H4. destruct H4 as (Cm & D & -> & ->). exists k. cbn [item_of]. rewrite Eq. split; [exact Sk|].
      split. { apply correct_elem. exists q. split; [exact Eq|]. split; [exact A|]. split; [exact N|]. split; [|exact Cs]. apply (content_iff p e q d _ Eq C); [apply plain_items|]. exists b. auto. }
      split; [|auto]. apply unshadowed_elem. apply (sibling_local _ (r_globals r)). exact V.
    + intros (k & Sk & Co & U & D & -> & ->). apply correct_elem in Co. destruct Co as (q & Eq & A & N & Ct & Cs). cbn [item_of] in Sk. rewrite Eq in Sk.
      destruct (compile_ok (model_of q) (role_proper w p e q G Eq)) as (d & C & _).
      exists (entry_of q d). split; [apply (find_class_iff w l p e _ F X); eauto|]. apply bind_ok. eexists. split; [apply (start_iff l r p e q d _ R ND NS Eq); eauto 10|]. cbn [fst snd].
      apply (content_iff p e q d _ Eq C) in Ct; [|apply plain_items]. destruct Ct as (b & Ad & Cm). pose proof (RC q d Eq) as Rc.
      apply bind_ok. eexists (_, _). split.
      * apply (rns_iff kids Rk _ _ _ _ _ Rc). rewrite (role_no_sheet p e q Eq NS). exists b. split; [exact Ad|]. split; [exact Cs|]. split; [|split; reflexivity].
        apply sibling_local. apply unshadowed_elem in U. exact U.
      * cbn [fst snd]. apply (EE k b q d _ eq_refl Eq). auto.
Qed.
End R.
