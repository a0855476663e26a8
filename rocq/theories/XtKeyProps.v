(** * C74: the function key() *)
From Coq Require Import NArith ZArith QArith String List Bool Lia Arith Sorted Permutation.
From Verif Require Import PyStr PyErr DomModel DomSpec DomCells DomInv DomOps DomStep DomOrder DomProps XpModel XpSpec XpTree XpAxes XpOrder XpSelect XpProps XpPath XpPathSpec XpPathSteps XpPathOrder XpPathEval XpPathProps XpString XpStringSpec XpStringProofs XtPattern XtPatternSpec XtPatternProofs XtPatternProps XtDispatch XtDispatchSpec XtDispatchProofs XtDispatchProps XtKey XtKeySpec.
Import ListNotations.
Local Open Scope nat_scope.

Lemma name_eqb_iff a b : name_eqb a b = true <-> a = b.
Proof.
  unfold name_eqb. destruct a as [[u|] n], b as [[v|] m]; cbn [fst snd]; rewrite ?andb_true_iff, ?str_eqb_eq; split; try congruence.
  - intros [-> ->]. reflexivity.
  - intros [= -> ->]. auto.
Qed.
Lemma keys_named_in name all k : In k (keys_named name all) <-> In k all /\ xk_name k = name.
Proof. unfold keys_named. rewrite filter_In, name_eqb_iff. reflexivity. Qed.

(** ** The patterns *)
Lemma removelast_in {A} (l : list A) : forall x, In x (removelast l) -> In x l.
Proof. induction l as [|a l IH]; intros x; cbn [removelast]; [auto|]. destruct l; [intros []|]. intros [<-|I]; [now left|right; auto]. Qed.
Lemma last_in {A} (l : list A) d : l <> [] -> In (last l d) l.
Proof. induction l as [|a l IH]; [congruence|]. intros _. destruct l; [now left|]. right. apply IH. discriminate. Qed.
Lemma key_good s x p : key_pattern p -> good_pattern s x p /\ greedy_pattern p /\ real_nodes s p.
Proof.
  intros K. unfold key_pattern in K. assert (forall r, Forall (fun q => ps_test q <> TNode) (steps_of r) -> node_last s x (steps_of r)) as NL.
  { intros r FA. rewrite Forall_forall in FA. split; [apply Forall_forall; intros q Q; apply FA; now apply removelast_in|]. intros E. exfalso. eapply FA; [|exact E]. apply last_in. discriminate. }
  assert (forall nodes d r, p = LIdKeyPath nodes d r -> False) as NI by (intros nodes d r ->; exact K).
  repeat split.
  - unfold good_pattern. destruct p; cbn [path_of]; try exact I; try contradiction; (split; [tauto|apply NL; tauto]).
  - destruct p; try exact I; try contradiction; tauto.
  - intros nodes d r E. destruct (NI nodes d r E).
Qed.
Lemma last_in_steps r : In (head_step (rp_first r) (rev (rp_rest r))) (steps_of r).
Proof.
  unfold steps_of. destruct (rev (rp_rest r)) as [|[d q] l] eqn:E; cbn [head_step]; [now left|]. right. apply in_map_iff. exists (d, q). split; [reflexivity|]. apply in_rev. rewrite E. now left.
Qed.
Lemma key_typed p steps : key_pattern p -> pattern_steps p = Ok steps -> pattern_type steps <> None.
Proof.
  intros K PS. destruct (path_of p) as [r|] eqn:P.
  - destruct (steps_shape p r steps P PS) as [t [l [-> ST]]]. destruct (tuple_test _ _ ST) as [TT _]. cbn [pattern_type]. rewrite TT.
    assert (ps_test (head_step (rp_first r) (rev (rp_rest r))) <> TNode) as NT.
    { assert (Forall (fun q => ps_test q <> TNode) (steps_of r)) as FA by (unfold key_pattern in K; destruct p; cbn [path_of] in P; try discriminate; try contradiction; injection P as <-; tauto).
      rewrite Forall_forall in FA. apply FA, last_in_steps. }
    destruct (pt_axis t) as [[]|]; try discriminate; destruct (ps_test (head_step (rp_first r) (rev (rp_rest r)))); cbn [plain_type]; congruence.
  - unfold key_pattern in K. destruct p; cbn [path_of] in P; try discriminate; try contradiction. cbn in PS. injection PS as <-. discriminate.
Qed.
Lemma entries_complete p t : forall l k j es, enumerate_entries k l = Ok es -> nth_error l j = Some t -> In p (tm_match t) ->
  exists steps e, pattern_steps p = Ok steps /\ pattern_entry (k + j) t steps = Ok e /\ In e es.
Proof.
  induction l as [|u l IH]; intros k j es; [destruct j; discriminate|]. cbn [enumerate_entries]. destruct (parse_all (tm_match u)) as [pl|] eqn:PA; cbn [bind]; [|discriminate].
  destruct (pattern_entries k u pl) as [el|] eqn:PE; cbn [bind]; [|discriminate]. destruct (enumerate_entries (S k) l) as [r'|] eqn:EN; cbn [bind]; [|discriminate]. intros [= <-] N I. destruct j as [|j].
  - cbn in N. injection N as ->. rewrite Nat.add_0_r.
    assert (exists steps, pattern_steps p = Ok steps /\ In steps pl) as [steps [PS SI]].
    { clear -PA I. revert pl PA. induction (tm_match t) as [|q l IH]; [destruct I|]. intros pl. cbn [parse_all]. destruct (pattern_steps q) as [st|] eqn:Q; cbn [bind]; [|discriminate]. destruct (parse_all l) as [l'|]; cbn [bind]; [|discriminate]. intros [= <-].
      destruct I as [->|I]; [exists st; split; [exact Q|now left]|]. destruct (IH I l' eq_refl) as [st' [H1 H2]]. exists st'. split; [exact H1|now right]. }
    assert (exists e, pattern_entry k t steps = Ok e) as [e HE].
    { clear -PE SI. revert el PE. induction pl as [|q pl IH]; [destruct SI|]. intros el. cbn [pattern_entries]. destruct (pattern_entry k t q) as [e|] eqn:Q; cbn [bind]; [|discriminate]. destruct (pattern_entries k t pl) as [l'|]; cbn [bind]; [|discriminate]. intros _.
      destruct SI as [->|SI]; [eauto|]. exact (IH SI l' eq_refl). }
    exists steps, e. split; [exact PS|]. split; [exact HE|]. apply in_or_app. left. apply (pattern_entries_in _ _ _ _ PE). eauto.
  - cbn in N. destruct (IH (S k) j r' EN N I) as [steps [e [H1 [H2 H3]]]]. exists steps, e. split; [exact H1|]. split; [replace (k + S j) with (S k + j) by lia; exact H2|]. apply in_or_app. now right.
Qed.
Lemma option_kind_dec (k : option kind) : k = Some KAttr \/ k <> Some KAttr.
Proof. destruct k as [[]|]; (left; reflexivity) || (right; discriminate). Qed.
Lemma above_first par a b : above par a b -> exists c, par c = Some a /\ above_or_self par c b.
Proof.
  induction 1 as [b P|b p P _ [c [PC A]]]; [exists b; split; [exact P|now left]|]. exists c. split; [exact PC|]. right. destruct A as [->|A]; [now constructor|]. eapply above_up; eauto.
Qed.

(** ** The table of a key *)
Section Table.
Variables (late_type : option kind -> bool) (late_name : option str * str -> bool).
Variables (s : store) (nm : names) (size : nat) (keys : list xsl_key) (es : list entry).
Hypotheses (F : forest s) (PN : proper_names nm) (KE : key_entries keys = Ok es).
Hypothesis KP : forall k p, In k keys -> In p (xk_match k) -> key_pattern p.

Definition has_value (y : nat) (v : str) : Prop := exists k p vs, In k keys /\ In p (xk_match k) /\ matches (xk_ns k) s nm p y /\ xk_use k y = Ok vs /\ In v vs.

Lemma entry_items_in x : forall l items, entry_items s nm size keys l x = Ok items ->
  (forall e, In e l -> exists b, entry_match s nm size e x = Ok b) /\
  (forall e, In e l -> entry_match s nm size e x = Ok true -> exists k vs, nth_error keys (en_pos e) = Some k /\ xk_use k x = Ok vs) /\
  forall v y, In (v, y) items <-> y = x /\ exists e k vs, In e l /\ entry_match s nm size e x = Ok true /\ nth_error keys (en_pos e) = Some k /\ xk_use k x = Ok vs /\ In v vs.
Proof.
  induction l as [|e l IH]; intros items; cbn [entry_items].
  - intros [= <-]. split; [intros e []|]. split; [intros e []|]. intros v y. split; [intros []|]. intros [_ [e [k [vs [[] _]]]]].
  - destruct (entry_match s nm size e x) as [b|] eqn:B; cbn [bind]; [|discriminate].
    match goal with |- context [bind ?o _] => destruct o as [own|] eqn:OWN end; cbn [bind]; [|discriminate].
    destruct (entry_items s nm size keys l x) as [rest|]; cbn [bind]; [|discriminate]. intros [= <-]. destruct (IH rest eq_refl) as [I1 [I2 I3]].
    assert (b = true -> exists k vs, nth_error keys (en_pos e) = Some k /\ xk_use k x = Ok vs /\ own = map (fun v => (v, x)) vs) as HO.
    { intros ->. destruct (nth_error keys (en_pos e)) as [k|]; [|discriminate]. destruct (xk_use k x) as [vs|] eqn:U; cbn [bind] in OWN; [|discriminate]. injection OWN as <-. eauto. }
    split; [|split].
    + intros f [<-|I]; eauto.
    + intros f [<-|I] M; [|eauto]. rewrite B in M. injection M as ->. destruct (HO eq_refl) as [k [vs [H1 [H2 _]]]]. eauto.
    + intros v y. rewrite in_app_iff, I3. split.
      * intros [H|[-> [f [k [vs [H1 H2]]]]]].
        -- destruct b; [|injection OWN as <-; destruct H]. destruct (HO eq_refl) as [k [vs [N [U ->]]]]. apply in_map_iff in H. destruct H as [w [[= <- <-] I]]. split; [reflexivity|]. exists e, k, vs. repeat split; auto. now left.
        -- split; [reflexivity|]. exists f, k, vs. split; [now right|exact H2].
      * intros [-> [f [k [vs [[<-|I] [M [N [U V]]]]]]]].
        -- left. rewrite B in M. injection M as ->. destruct (HO eq_refl) as [k' [vs' [N' [U' ->]]]]. rewrite N in N'. injection N' as <-. rewrite U in U'. injection U' as <-. apply in_map_iff. eauto.
        -- right. split; [reflexivity|]. exists f, k, vs. auto.
Qed.
Lemma from_entry x e : in_document s x -> In e es -> exists k p steps, nth_error keys (en_pos e) = Some k /\ In k keys /\ In p (xk_match k) /\ pattern_steps p = Ok steps /\ pattern_entry (en_pos e) (key_rule k) steps = Ok e /\
  forall b, entry_match s nm size e x = Ok b -> (b = true <-> matches (xk_ns k) s nm p x).
Proof.
  intros D I. apply (enumerate_in _ _ _ KE) in I. destruct I as [j [t [p [steps [N [IP [PS PE]]]]]]]. cbn [plus] in PE. pose proof (entry_fields _ _ _ _ PE) as [_ [_ [EP _]]].
  rewrite nth_error_map in N. destruct (nth_error keys j) as [k|] eqn:NK; [|discriminate]. injection N as <-. cbn [key_rule tm_match] in IP. exists k, p, steps. rewrite EP.
  pose proof (nth_error_In _ _ NK) as IK. repeat split; auto; rewrite (entry_pattern s nm size p steps j (key_rule k) e x PS PE) in H; cbn [key_rule tm_ns] in H; destruct (key_good s x p (KP k p IK IP)) as [G [GP RN]];
    apply (C53_exact_partial (xk_ns k) s nm size p x b F PN D RN G GP H).
Qed.
Lemma to_entry x k p : exists_node s x -> in_document s x -> In k keys -> In p (xk_match k) -> matches (xk_ns k) s nm p x ->
  exists steps j e, nth_error keys j = Some k /\ pattern_steps p = Ok steps /\ pattern_entry j (key_rule k) steps = Ok e /\ en_pos e = j /\ In e es /\ fits s nm x e.
Proof.
  intros E D IK IP M. destruct (In_nth_error _ _ IK) as [j N]. assert (nth_error (map key_rule keys) j = Some (key_rule k)) as N' by (rewrite nth_error_map, N; reflexivity).
  destruct (entries_complete p (key_rule k) _ 0 j es KE N' IP) as [steps [e [PS [PE I]]]]. cbn [plus] in PE. exists steps, j, e. repeat split; auto; [apply (entry_fields _ _ _ _ PE)|].
  destruct (key_good s x p (KP k p IK IP)) as [G [GP RN]]. eapply (fits_ok s nm x j (key_rule k) p steps e); eauto.
Qed.
Lemma rules_sub x e : exists_node s x -> (In e (key_rules late_type late_name s nm es x) <-> In e es /\ fits s nm x e).
Proof.
  intros E. unfold key_rules. rewrite rules_in_gen; [|reflexivity|exact E]. split; [tauto|]. intros [I FI]. repeat split; auto. apply (enumerate_in _ _ _ KE) in I. destruct I as [j [t [p [steps [N [_ [_ PE]]]]]]].
  pose proof (entry_fields _ _ _ _ PE) as [_ [_ [_ [_ [ET _]]]]]. rewrite ET. rewrite nth_error_map in N. destruct (nth_error keys j); [|discriminate]. injection N as <-. reflexivity.
Qed.
Lemma own_items x items : exists_node s x -> in_document s x -> entry_items s nm size keys (key_rules late_type late_name s nm es x) x = Ok items ->
  forall v y, In (v, y) items <-> y = x /\ has_value x v.
Proof.
  intros E D H v y. destruct (entry_items_in x _ _ H) as [I1 [I2 I3]]. rewrite I3. split; intros [-> HV]; (split; [reflexivity|]).
  - destruct HV as [e [k [vs [I [M [N [U V]]]]]]]. apply rules_sub in I; [|exact E]. destruct I as [I _]. destruct (from_entry x e D I) as [k' [p [steps [N' [IK [IP [PS [PE HM]]]]]]]]. rewrite N in N'. injection N' as <-.
    exists k, p, vs. repeat split; auto. now apply (HM true M).
  - destruct HV as [k [p [vs [IK [IP [M [U V]]]]]]]. destruct (to_entry x k p E D IK IP M) as [steps [j [e [N [PS [PE [EJ [I FI]]]]]]]]. assert (In e (key_rules late_type late_name s nm es x)) as IR by (apply rules_sub; auto).
    exists e, k, vs. split; [exact IR|]. rewrite EJ. destruct (I1 e IR) as [b B]. rewrite B. repeat split; auto. f_equal.
    rewrite (entry_pattern s nm size p steps j (key_rule k) e x PS PE) in B. destruct (key_good s x p (KP k p IK IP)) as [G [GP RN]]. apply (C53_exact_partial (xk_ns k) s nm size p x b F PN D RN G GP B). exact M.
Qed.
Lemma attribute_seen x v : exists_node s x -> in_document s x -> attribute s x -> has_value x v -> matches_attribute es = true.
Proof.
  intros E D A [k [p [vs [IK [IP [M _]]]]]]. destruct (to_entry x k p E D IK IP M) as [steps [j [e [N [PS [PE [EJ [I FI]]]]]]]]. unfold matches_attribute. apply existsb_exists. exists e. split; [exact I|]. apply kind_is_iff.
  pose proof (entry_fields _ _ _ _ PE) as [_ [_ [_ [_ [_ ET]]]]]. pose proof (key_typed p steps (KP k p IK IP) PS) as NT. rewrite <- ET in NT. destruct FI as [FI|[FI _]]; [contradiction|]. rewrite FI. exact A.
Qed.
Lemma over_in f : forall l items, over f l = Ok items -> (forall x, In x l -> exists i, f x = Ok i) /\ forall p, In p items <-> exists x i, In x l /\ f x = Ok i /\ In p i.
Proof.
  induction l as [|x l IH]; intros items; cbn [over].
  - intros [= <-]. split; [intros x []|]. intros p. split; [intros []|intros [x [i [[] _]]]].
  - destruct (f x) as [a|] eqn:FX; cbn [bind]; [|discriminate]. destruct (over f l) as [b|]; cbn [bind]; [|discriminate]. intros [= <-]. destruct (IH b eq_refl) as [I1 I2]. split.
    + intros y [<-|I]; eauto.
    + intros p. rewrite in_app_iff, I2. split; [intros [H|[y [i [H1 H2]]]]; [exists x, a; auto using in_eq|exists y, i; split; [now right|exact H2]]|].
      intros [y [i [[<-|I] [H1 H2]]]]; [left; congruence|right; eauto].
Qed.
Lemma below_document x y : in_document s x -> above_or_self (parent_of s) x y -> in_document s y.
Proof. intros [r [K A]] B. exists r. split; [exact K|]. eapply aos_trans; eauto. Qed.
Lemma attr_leaf x y : attribute s x -> above_or_self (parent_of s) x y -> y = x.
Proof.
  intros A [->|B]; [reflexivity|]. destruct (above_first _ _ _ B) as [c [PC _]]. destruct (f_parent s F _ _ PC) as [k [K C]]. unfold attribute in A. rewrite A in K. injection K as <-. discriminate.
Qed.
Lemma match_node_in : forall fuel x items, exists_node s x -> in_document s x -> match_node late_type late_name s nm size fuel keys es x = Ok items ->
  forall v y, In (v, y) items <-> above_or_self (parent_of s) x y /\ has_value y v.
Proof.
  induction fuel as [|f IH]; intros x items E D; cbn [match_node]; [discriminate|].
  destruct (entry_items s nm size keys (key_rules late_type late_name s nm es x) x) as [own|] eqn:OWN; cbn [bind]; [|discriminate].
  match goal with |- context [bind ?o _] => destruct o as [below|] eqn:BEL end; cbn [bind]; [|discriminate]. intros [= <-] v y. rewrite in_app_iff, (own_items x own E D OWN v y).
  assert (In (v, y) below <-> above (parent_of s) x y /\ has_value y v) as ->; [|unfold above_or_self; split; [intros [[-> H]|[H1 H2]]; auto|intros [[<-|H] H2]; auto]].
  assert (forall c, parent_of s c = Some x -> exists_node s c /\ in_document s c) as CH.
  { intros c PC. destruct (parent_ex s c x PC) as [m [G _]]. split; [eapply get_some; eauto|]. apply (below_document x); [exact D|]. right. now constructor. }
  assert (forall l its, (forall c, In c l -> parent_of s c = Some x) -> over (match_node late_type late_name s nm size f keys es) l = Ok its ->
    (In (v, y) its <-> exists c, In c l /\ above_or_self (parent_of s) c y /\ has_value y v)) as OV.
  { intros l its PL O. destruct (over_in _ _ _ O) as [O1 O2]. rewrite O2. split.
    - intros [c [i [I [M H]]]]. destruct (CH c (PL c I)) as [EC DC]. apply (IH c i EC DC M) in H. eauto.
    - intros [c [I H]]. destruct (O1 c I) as [i M]. destruct (CH c (PL c I)) as [EC DC]. exists c, i. repeat split; auto. now apply (IH c i EC DC M). }
  assert (forall c, In c (kids s x) -> parent_of s c = Some x) as KC by (intros c I; eapply kid_parent; eauto).
  assert (forall c, In c (attrs_of s x) -> parent_of s c = Some x) as AC by (intros c I; apply (f_alink s F) in I; tauto).
  assert (forall c, parent_of s c = Some x -> above_or_self (parent_of s) c y -> above (parent_of s) x y) as UP.
  { intros c PC [->|A]; [now constructor|]. eapply above_trans; [|exact A]. now constructor. }
  assert (forall its, over (match_node late_type late_name s nm size f keys es) (kids s x) = Ok its -> attrs_of s x = [] \/ matches_attribute es = false ->
    (In (v, y) its <-> above (parent_of s) x y /\ has_value y v)) as KIDS.
  { intros its O NA. rewrite (OV _ _ KC O). split; [intros [c [I [A H]]]; split; [exact (UP c (KC c I) A)|exact H]|]. intros [A H]. destruct (above_first _ _ _ A) as [c [PC AC']]. exists c. split; [|auto].
    destruct (CH c PC) as [EC DC]. destruct (kind_of s c) as [k|] eqn:KK.
    - apply (f_link s F). split; [exact PC|]. intros A2. exfalso. assert (attribute s c) as AT by (unfold attribute; congruence). pose proof (attr_leaf c y AT AC') as ->. destruct NA as [NA|NA].
      + assert (In c (attrs_of s x)) as I by (apply (f_alink s F); split; [exact PC|exact AT]). rewrite NA in I. destruct I.
      + rewrite (attribute_seen c v EC DC AT H) in NA. discriminate.
    - apply (f_link s F). split; [exact PC|congruence]. }
  destruct (is_element s x) eqn:EL.
  - rewrite (f_read s F x E) in BEL. cbn [bind] in BEL. destruct (over _ (kids s x)) as [a|] eqn:OK; cbn [bind] in BEL; [|discriminate]. destruct (matches_attribute es) eqn:MA.
    + destruct (over _ (attrs_of s x)) as [b|] eqn:OA; cbn [bind] in BEL; [|discriminate]. injection BEL as <-. rewrite in_app_iff, (OV _ _ KC OK), (OV _ _ AC OA). split.
      * intros [[c [I [A H]]]|[c [I [A H]]]]; (split; [|exact H]); [exact (UP c (KC c I) A)|exact (UP c (AC c I) A)].
      * intros [A H]. destruct (above_first _ _ _ A) as [c [PC AC']]. destruct (CH c PC) as [EC _]. unfold exists_node in EC. destruct (option_kind_dec (kind_of s c)) as [KA|KA].
        -- right. exists c. split; [apply (f_alink s F); auto|auto].
        -- left. exists c. split; [apply (f_link s F); auto|auto].
    + injection BEL as <-. apply KIDS; auto.
  - destruct (is_entity s x) eqn:EN.
    + rewrite (f_read s F x E) in BEL. cbn [bind] in BEL. apply KIDS; [exact BEL|]. left. destruct (attrs_of s x) as [|c l] eqn:AT; [reflexivity|]. exfalso. assert (kind_of s x = Some KElement) as K by (apply (f_aparent s F x c); rewrite AT; now left).
      apply is_entity_iff in EN. congruence.
    + injection BEL as <-. split; [intros []|]. intros [A _]. exfalso. destruct (above_first _ _ _ A) as [c [PC _]]. destruct (f_parent s F _ _ PC) as [k [K C]].
      unfold is_element, is_entity in EL, EN. rewrite (has_kind_eq s k _ _ K) in EL. rewrite (has_kind_eq s k _ _ K) in EN. destruct k; discriminate.
Qed.
End Table.

(** ** C74 *)
Lemma nodup_sorted s l : NoDup l -> NoDup (nodeset_new s l).
Proof. intros H. eapply Permutation_NoDup; [apply sort_perm|exact H]. Qed.
(** key() gives the nodes of the document of the context node that have a key of this
    name with one of the values looked up, in document order, whatever the keys, the
    document and the use expressions are; for a value that is not a node-set no node
    is repeated.  Missing: patterns with id(), key() or node() or excluded in C53
    (node() is refuted below), and repeated nodes for a node-set (refuted below). *)
Theorem C74_key_partial : forall late_type late_name s nm size pyset all name arg node root l,
  forest s -> proper_names nm -> lists_set pyset -> exists_node s node -> kind_of s root = Some KEntity -> above_or_self (parent_of s) root node -> key_patterns all name ->
  key_function late_type late_name s nm size pyset all name arg node = Ok l ->
  (forall x, In x l <-> exists v, looked_up arg v /\ has_key s nm all name root v x) /\ StronglySorted (upto s) l /\ (forall v, arg = AValue v -> NoDup l).
Proof.
  intros lt ln s nm size pyset all name arg node root l F PN PS E K A KP H. unfold key_function in H. pose proof (keys_named_in name all) as KN.
  destruct (keys_named name all) as [|k0 ks] eqn:KE.
  - injection H as <-. split; [|split; [constructor|intros; constructor]]. intros x. split; [intros []|]. intros [v [_ [_ [k [p [vs [I [N _]]]]]]]]. apply (KN k). auto.
  - rewrite <- KE in *. clear KE k0 ks. set (keys := keys_named name all) in *. clearbody keys. destruct (get_root (bound s) s node) as [r|] eqn:R; [|discriminate].
    pose proof (get_root_unique s F _ _ _ _ R K A) as <-. unfold key_items in H. destruct (key_entries keys) as [es|] eqn:KE; cbn [bind] in H; [|discriminate]. rewrite (proj2 (is_entity_iff s root) K) in H.
    destruct (match_node _ _ _ _ _ _ _ _ _) as [items|] eqn:M; cbn [bind] in H; [|discriminate]. injection H as <-.
    assert (exists_node s root) as ER by (apply entity_exists; exact K). assert (in_document s root) as DR by (exists root; split; [exact K|now left]).
    assert (forall v x, In (v, x) items <-> has_key s nm all name root v x) as HI.
    { intros v x. rewrite (match_node_in lt ln s nm size keys es F PN KE) with (x := root) (v := v) (y := x); [|intros k p I; apply KN in I; destruct I; now apply KP|exact ER|exact DR|exact M].
      unfold has_key, has_value. split; intros [H1 [k [p [vs H2]]]]; (split; [exact H1|]); exists k, p, vs; [rewrite KN in H2; tauto|rewrite KN; tauto]. }
    assert (forall v x, In x (key_values s pyset items v) <-> has_key s nm all name root v x) as HV.
    { intros v x. unfold key_values, nodeset_new. rewrite sort_in, (proj2 (PS _)), in_map_iff, <- HI. split; [intros [[w y] [<- I]]; apply filter_In in I; destruct I as [I Q]; cbn [fst] in Q; apply str_eqb_eq in Q; subst w; exact I|].
      intros I. exists (v, x). split; [reflexivity|]. apply filter_In. split; [exact I|]. apply str_eqb_eq. reflexivity. }
    set (raw := match arg with ASet vs => flat_map (key_values s pyset items) vs | AValue v => key_values s pyset items v end).
    assert (forall x, In x raw <-> exists v, looked_up arg v /\ has_key s nm all name root v x) as HR.
    { intros x. unfold raw. destruct arg as [vs|v]; cbn [looked_up].
      - rewrite in_flat_map. split; intros [v [I J]]; exists v; (split; [exact I|]); now apply HV.
      - rewrite HV. split; [intros J; exists v; auto|intros [w [-> J]]; exact J]. }
    split; [intros x; unfold nodeset_new; rewrite sort_in; apply HR|]. split.
    + unfold nodeset_new. apply sort_sorted; [exact F|]. assert (forall x, In x raw -> above_or_self (parent_of s) root x) as BE by (intros x I; apply HR in I; destruct I as [v [_ [I _]]]; exact I). split.
      * intros x I. destruct (BE x I) as [<-|A']; [exact ER|]. exact (above_exists s root x A').
      * intros x y I J. exists root. auto.
    + intros v ->. apply nodup_sorted. unfold raw, key_values. apply nodup_sorted, PS.
Qed.
Print Assumptions C74_key_partial.

(** It answers for a node of a document if the patterns are [easy_pattern]s (see C53) and
    the use expressions have values. *)
Lemma easy_entry s (nm : names) (size : nat) t p : forest s -> easy_pattern (tm_ns t) p -> forall k, exists steps e, pattern_steps p = Ok steps /\ pattern_entry k t steps = Ok e.
Proof.
  intros F E k. unfold easy_pattern in E. destruct (path_of p) as [r|] eqn:P.
  - unfold steps_of in E. inversion E as [|? ? E1 E2]; subst. rewrite (steps_tuples p r P).
    assert (Forall (fun dp => easy (tm_ns t) (snd dp)) (rev (rp_rest r))) as ER by (apply Forall_rev; apply (proj1 (Forall_map _ _ _)) in E2; exact E2).
    destruct (tuples_total (tm_ns t) s nm size F (rp_first r) (rev (rp_rest r)) E1 ER) as [l [T _]]. rewrite T. cbn [bind]. destruct (tuples_head _ _ _ T) as [u [l' [-> ST]]].
    exists ((u :: l') ++ anchor_tuples p). cbn [app]. unfold pattern_entry. destruct (tuple_test _ _ ST) as [_ TK].
    assert (declared (tm_ns t) (ps_test (match rev (rp_rest r) with [] => rp_first r | (_, q) :: _ => q end))) as DC by (destruct (rev (rp_rest r)) as [|[d q] l0]; [apply E1|inversion ER as [|? ? E3 _]; subst; apply E3]).
    assert (exists k, resolve t (pattern_key (u :: l' ++ anchor_tuples p)) = Ok k) as [k' RK].
    { cbn [pattern_key]. destruct (l' ++ anchor_tuples p); [|cbn; eauto]. rewrite TK. revert DC. match goal with |- context [plain_key (ps_test ?w)] => generalize (ps_test w) end. intros [] DC; cbn [plain_key resolve declared] in *; eauto; destruct DC as [v ->]; eauto. }
    rewrite RK. destruct (pattern_type (u :: l' ++ anchor_tuples p)) as [[]|]; cbn [bind]; eauto.
  - destruct p; cbn [path_of] in P; try discriminate; eexists _, _; (split; [reflexivity|]); reflexivity.
Qed.
Lemma enumerate_total s (nm : names) (size : nat) : forest s -> forall l k, (forall t p, In t l -> In p (tm_match t) -> easy_pattern (tm_ns t) p) -> exists es, enumerate_entries k l = Ok es.
Proof.
  intros F. induction l as [|t l IH]; intros k EP; cbn [enumerate_entries]; [eauto|].
  assert (forall ps, (forall p, In p ps -> In p (tm_match t)) -> exists l, parse_all ps = Ok l /\ exists es, pattern_entries k t l = Ok es) as HP.
  { induction ps as [|p ps IHp]; intros SUB; cbn [parse_all]; [exists []; split; [reflexivity|exists []; reflexivity]|].
    destruct (easy_entry s nm size t p F (EP t p (or_introl eq_refl) (SUB p (or_introl eq_refl))) k) as [steps [e [P1 P2]]]. rewrite P1. cbn [bind].
    destruct IHp as [pl [-> [es PE]]]; [intros; apply SUB; now right|]. cbn [bind]. eexists. split; [reflexivity|]. cbn [pattern_entries]. rewrite P2, PE. cbn. eauto. }
  destruct (HP (tm_match t)) as [pl [-> [es PE]]]; [auto|]. cbn [bind]. rewrite PE. cbn [bind]. destruct (IH (S k)) as [es' ->]; [intros; eapply EP; eauto; now right|]. cbn. eauto.
Qed.
Lemma over_total f : forall l, (forall x, In x l -> exists i, f x = Ok i) -> exists i, over f l = Ok i.
Proof. induction l as [|x l IH]; intros H; cbn [over]; [eauto|]. destruct (H x (or_introl eq_refl)) as [a ->]. cbn [bind]. destruct IH as [b ->]; [intros; apply H; now right|]. cbn. eauto. Qed.
Section Total.
Variables (late_type : option kind -> bool) (late_name : option str * str -> bool).
Variables (s : store) (nm : names) (size : nat) (keys : list xsl_key) (es : list entry).
Hypotheses (F : forest s) (KE : key_entries keys = Ok es).
Hypothesis EP : forall k p, In k keys -> In p (xk_match k) -> easy_pattern (xk_ns k) p.
Hypothesis US : forall k x, In k keys -> exists vs, xk_use k x = Ok vs.
Lemma own_total x : exists_node s x -> exists i, entry_items s nm size keys (key_rules late_type late_name s nm es x) x = Ok i.
Proof.
  intros E. assert (forall l, (forall e, In e l -> In e es) -> exists i, entry_items s nm size keys l x = Ok i) as H.
  { induction l as [|e l IH]; intros SUB; cbn [entry_items]; [eauto|]. pose proof (SUB e (or_introl eq_refl)) as I. apply (enumerate_in _ _ _ KE) in I. destruct I as [j [t [p [steps [N [IP [P1 P2]]]]]]]. cbn [plus] in P2.
    rewrite nth_error_map in N. destruct (nth_error keys j) as [k|] eqn:NK; [|discriminate]. injection N as <-. pose proof (nth_error_In _ _ NK) as IK.
    rewrite (entry_pattern s nm size p steps j (key_rule k) e x P1 P2). cbn [key_rule tm_ns]. destruct (C53_total_partial (xk_ns k) s nm size p x F (EP k p IK IP)) as [b ->]. cbn [bind].
    pose proof (entry_fields _ _ _ _ P2) as [_ [_ [-> _]]]. rewrite NK. destruct (US k x IK) as [vs ->]. cbn [bind]. destruct IH as [i ->]; [intros; apply SUB; now right|]. destruct b; cbn; eauto. }
  apply H. intros e I. unfold key_rules in I. apply rules_in_gen in I; [tauto|reflexivity|exact E].
Qed.
Lemma match_node_total : forall fuel t, rep s t -> exists_node s (root t) -> length (pre t) < fuel -> exists i, match_node late_type late_name s nm size fuel keys es (root t) = Ok i.
Proof.
  induction fuel as [|f IH]; intros [n ts] R E L; [lia|]. cbn [match_node root pre] in *. destruct (own_total n E) as [own ->]. cbn [bind]. inversion R as [n' ts' KS RT EE]; subst n' ts'. cbn [length] in L.
  assert (exists i, over (match_node late_type late_name s nm size f keys es) (kids s n) = Ok i) as [a OA].
  { apply over_total. intros c I. pose proof (kid_exists s n c F I) as EC. rewrite KS in I. apply in_map_iff in I. destruct I as [t [<- It]]. apply IH; [rewrite Forall_forall in RT; auto|exact EC|].
    clear -L It. induction ts as [|u ts IH]; [destruct It|]. cbn [flat_map] in L. rewrite app_length in L. destruct It as [->|It]; [lia|]. apply IH; [lia|exact It]. }
  assert (exists i, over (match_node late_type late_name s nm size f keys es) (attrs_of s n) = Ok i) as [b OB].
  { apply over_total. intros c I. pose proof (proj1 (f_alink s F n c) I) as [PC KC]. destruct (parent_ex s c n PC) as [m [G _]]. assert (exists_node s c) as EC by (eapply get_some; eauto). destruct f as [|f']; [lia|]. cbn [match_node]. destruct (own_total c EC) as [own' ->]. cbn [bind].
    unfold is_element, is_entity. rewrite !(has_kind_eq s KAttr _ _ KC). cbn. eauto. }
  rewrite (f_read s F n E). cbn [bind]. rewrite OA, OB. cbn [bind]. destruct (is_element s n); [destruct (matches_attribute es); cbn; eauto|]. destruct (is_entity s n); cbn; eauto.
Qed.
End Total.
Theorem C74_answers_partial : forall late_type late_name s nm size pyset all name arg node root,
  forest s -> exists_node s node -> kind_of s root = Some KEntity -> above_or_self (parent_of s) root node ->
  (forall k p, In k all -> xk_name k = name -> In p (xk_match k) -> easy_pattern (xk_ns k) p) -> (forall k x, In k all -> xk_name k = name -> exists vs, xk_use k x = Ok vs) ->
  exists l, key_function late_type late_name s nm size pyset all name arg node = Ok l.
Proof.
  intros lt ln s nm size pyset all name arg node r F E K A EP US. unfold key_function. pose proof (keys_named_in name all) as KN. destruct (keys_named name all) as [|k0 ks] eqn:EK; [eauto|]. rewrite <- EK in *. clear EK k0 ks.
  set (keys := keys_named name all) in *. clearbody keys. destruct (top_ex s node F E) as [z [d TP]]. assert (z = r) as ->.
  { pose proof (top_spec _ _ _ _ _ TP) as [U RZ]. pose proof (up_aos _ _ _ _ U) as ZB. pose proof (top_above s z node r RZ ZB A) as [<-|AB]; [reflexivity|]. exfalso. destruct (above_first _ _ _ AB) as [c [_ _]].
    assert (exists m, parent_of s r = Some m) as [m PM] by (destruct AB; eauto). assert (In r (kids s m)) as I by (apply (f_link s F); split; [exact PM|congruence]). destruct (f_kind s F _ _ I) as [k [KK CK]]. rewrite K in KK. injection KK as <-. discriminate. }
  destruct (get_root_ex s _ node r d TP K) as [m G]. unfold bound at 1. rewrite G. pose proof (get_root_unique s F _ _ _ _ G K A) as <-.
  destruct (enumerate_total s nm size F (map key_rule keys) 0) as [es KE].
  { intros t p I IP. apply in_map_iff in I. destruct I as [k [<- I]]. apply KN in I. destruct I. cbn [key_rule tm_ns tm_match] in *. now apply EP. }
  unfold key_items, key_entries. rewrite KE. cbn [bind]. rewrite (proj2 (is_entity_iff s r) K). assert (exists_node s r) as ER by (apply entity_exists; exact K). destruct (subtree s r F ER) as [ts R].
  destruct (match_node_total lt ln s nm size keys es F KE) with (fuel := bound s) (t := T r ts) as [i MI]; [intros k p I; apply KN in I; destruct I; now apply EP|intros k x I; apply KN in I; destruct I; now apply US|exact R|exact ER|pose proof (pre_length s (T r ts) F R ER); unfold bound; lia|].
  cbn [root] in MI. rewrite MI. cbn [bind]. eauto.
Qed.
Print Assumptions C74_answers_partial.

(** ** Examples *)
(** In [sample] the elements 3 and 7 are called a, and 9 is the attribute x of 3. *)
Definition sample_use (x : nat) : result (list str) := Ok (match x with 3 => [lit "d"; lit "x"] | 7 => [lit "d"] | 9 => [lit "x"] | _ => [] end).
Definition sample_key (ps : list lpattern) : xsl_key := {| xk_name := (None, lit "k"); xk_match := ps; xk_ns := no_prefixes; xk_use := sample_use |}.
Definition sample_keys := [sample_key [single "a"]; sample_key [LAnywhere (rel (pat (TLocal (lit "x"))) [])]; {| xk_name := (None, lit "other"); xk_match := [single "b"]; xk_ns := no_prefixes; xk_use := fun _ => Ok [lit "d"] |}].
Definition sample_lookup (keys : list xsl_key) (n : string) (arg : key_arg) := key_function never never_name sample sample_names 1 (nodup Nat.eq_dec) keys (None, lit n) arg 5.
Lemma nodup_lists : lists_set (nodup Nat.eq_dec).
Proof. intros l. split; [apply NoDup_nodup|]. intros x. apply nodup_In. Qed.
Example C74_case : forest sample /\ proper_names sample_names /\ lists_set (nodup Nat.eq_dec) /\ exists_node sample 5 /\ kind_of sample 0 = Some KEntity /\ above_or_self (parent_of sample) 0 5 /\ key_patterns sample_keys (None, lit "k") /\
  (forall k p, In k sample_keys -> xk_name k = (None, lit "k") -> In p (xk_match k) -> easy_pattern (xk_ns k) p) /\
  sample_lookup sample_keys "k" (AValue (lit "d")) = Ok [3; 7] /\ sample_lookup sample_keys "k" (AValue (lit "x")) = Ok [3; 9] /\ sample_lookup sample_keys "other" (AValue (lit "d")) = Ok [4] /\
  sample_lookup sample_keys "none" (AValue (lit "d")) = Ok [] /\ sample_lookup sample_keys "k" (ASet [lit "x"; lit "y"]) = Ok [3; 9].
Proof.
  split; [exact sample_forest|]. split; [intros x; discriminate|]. split; [exact nodup_lists|]. split; [vm_compute; lia|]. split; [vm_compute; reflexivity|].
  split; [right; apply above_up with (p := 4); [vm_compute; reflexivity|]; apply above_up with (p := 3); [vm_compute; reflexivity|]; apply above_up with (p := 1); [vm_compute; reflexivity|]; apply above_parent; vm_compute; reflexivity|].
  split; [|split; [|repeat apply conj; vm_compute; reflexivity]].
  - intros k p [<-|[<-|[<-|[]]]] N [<-|[]]; cbn [key_pattern single rel]; (split; [repeat constructor|]); (split; [repeat (constructor; [discriminate|]); constructor|repeat constructor]).
  - intros k p [<-|[<-|[<-|[]]]] N [<-|[]]; unfold easy_pattern; cbn [path_of single steps_of rel rp_first rp_rest map snd]; (constructor; [|constructor]); cbn [pst pat named ps_attr ps_test ps_preds good_test declared];
      (split; [exact I|]; split; [exact I|]; split; [split; [constructor|exists []; auto]|auto]).
Qed.
(** A node that has several of the values of a node-set is several times in the
    result. *)
Theorem C74_repeated_refuted : forest sample /\ sample_lookup sample_keys "k" (ASet [lit "x"; lit "d"]) = Ok [3; 3; 9; 7] /\ ~ NoDup [3; 3; 9; 7].
Proof.
  split; [exact sample_forest|]. split; [vm_compute; reflexivity|]. intros N. inversion N as [|? ? H _]; subst. apply H. now left.
Qed.
Print Assumptions C74_repeated_refuted.
(** A key for 'node()' is also given to the root, which the pattern does not match. *)
Definition node_key : xsl_key := {| xk_name := (None, lit "k"); xk_match := [LRelative (rel (pst TNode) [])]; xk_ns := no_prefixes; xk_use := fun x => Ok (match x with 0 => [lit "d"] | _ => [] end) |}.
Theorem C74_node_refuted : forest sample /\ sample_lookup [node_key] "k" (AValue (lit "d")) = Ok [0] /\ forall root v, ~ has_key sample sample_names [node_key] (None, lit "k") root v 0.
Proof.
  split; [exact sample_forest|]. split; [vm_compute; reflexivity|]. intros root v [_ [k [p [vs [[<-|[]] [_ [[<-|[]] [M _]]]]]]]].
  destruct M as [n [_ [m [E R]]]]. unfold as_steps in R; cbn [lp_steps rel rp_first rp_rest flat_map] in R. inversion R as [|? ? ? c ? R1 R2]; subst. inversion R2; subst. apply step_from_axis in R1. destruct R1 as [[P NA] _].
  vm_compute in P. discriminate P.
Qed.
Print Assumptions C74_node_refuted.
