(** * C115 to C117: resolvers, input sources and dictionaries of URIs *)
From Coq Require Import NArith ZArith String List Bool Relations Lia.
From Verif Require Import PyStr PyErr IriSpec IriModel IriSplit IriAbs RsModel RsSpec RsProofs.
Import ListNotations.
Open Scope N_scope.

(** ** C115: resolvers *)
Definition rules (v : resolver) : list ((str -> bool) * bool) := map (fun r => (r_match r, r_allow r)) (v_rules v).
Definition opened (o : opening) : str := match o with OpenFile u => u | OpenUrl u => u end.
(** Files are opened as files, everything else by urllib2. *)
Definition opens (scheme u : str) (o : opening) : Prop := (scheme = lit "file" /\ o = OpenFile u) \/ (scheme <> lit "file" /\ o = OpenUrl u).

Lemma authorize_spec : forall l u, authorize l u = true <-> decides (map (fun r => (r_match r, r_allow r)) l) u true.
Proof.
  induction l as [|r l IH]; intro u.
  - split; [intro H; discriminate H|]. intros (b & c & a & E & _). destruct b; discriminate E.
  - cbn [authorize map]. destruct (r_match r u) eqn:M.
    + split.
      * intro H. exists [], (r_match r), (map (fun r => (r_match r, r_allow r)) l). rewrite H. auto.
      * intros (b & c & a & E & Hc & Hb). destruct b as [|[c' x] b]; cbn [app] in E; [injection E; auto|].
        injection E as <- <- E. inversion Hb as [|? ? H _]. cbn in H. congruence.
    + rewrite IH. split.
      * intros (b & c & a & E & Hc & Hb). exists ((r_match r, r_allow r) :: b), c, a. rewrite E. auto.
      * intros (b & c & a & E & Hc & Hb). destruct b as [|[c' x] b]; cbn [app] in E; [injection E as <- _ _; congruence|].
        injection E as _ _ E. inversion Hb. exists b, c, a. auto.
Qed.
Definition barred (v : resolver) (u : str) : bool := (match v_rules v with [] => false | _ => true end) && negb (authorize (v_rules v) u).
Lemma barred_spec : forall v u, (barred v u = false <-> permitted (rules v) u).
Proof.
  intros v u. unfold barred, permitted, rules. rewrite <- authorize_spec.
  destruct (v_rules v) as [|r l]; cbn [andb map]; [tauto|]. destruct (authorize _ _); cbn; split; auto; intros [H|H]; discriminate H.
Qed.
Lemma barred_spec' : forall v u, (barred v u = true <-> ~ permitted (rules v) u).
Proof. intros v u. rewrite <- barred_spec. destruct (barred v u); split; congruence. Qed.
Lemma supported_spec : forall s, existsb (str_eqb s) SCHEMES = true <-> is_supported s.
Proof.
  intro s. unfold is_supported, SCHEMES. rewrite existsb_exists. split.
  - intros (x & Hx & E). apply str_eqb_eq in E. now subst.
  - intro H. exists s. split; auto. now apply str_eqb_eq.
Qed.
Lemma supported_spec' : forall s, existsb (str_eqb s) SCHEMES = false <-> ~ is_supported s.
Proof. intro s. rewrite <- supported_spec. destruct (existsb _ _); split; congruence. Qed.

(** Whatever the reference and the base: what is opened is permitted. *)
Theorem C115_jail : forall v ref base o, v_resolve v ref base = Ok o -> permitted (rules v) (opened o).
Proof.
  intros v ref base o H. unfold v_resolve in H.
  destruct (match ref with RString _ => _ | RRequest _ => _ end) as [[u sc]|]; cbn [bind] in H; [|discriminate H].
  fold (barred v u) in H. destruct (barred v u) eqn:B; [discriminate H|]. apply barred_spec in B.
  destruct sc as [[sc|]|]; [|injection H as <-; exact B|discriminate H].
  destruct (str_eqb sc (lit "file")); injection H as <-; exact B.
Qed.
Print Assumptions C115_jail.
(** A URI, without a base. *)
Theorem C115_uri : forall v s r,
  scheme_name s -> let u := s ++ lit ":" ++ r in
  (~ is_supported s -> v_resolve v (RString u) None = Err (IriError 201)) /\
  (is_supported s -> ~ permitted (rules v) u -> v_resolve v (RString u) None = Err (IriError 300)) /\
  (is_supported s -> permitted (rules v) u -> exists o, opens s u o /\ v_resolve v (RString u) None = Ok o).
Proof.
  intros v s r Hs u. assert (E : get_scheme u = Some s) by (apply get_scheme_Some; exact Hs).
  unfold v_resolve. rewrite E. fold (barred v u).
  split; [|split].
  - intro H. apply supported_spec' in H. rewrite H. reflexivity.
  - intros H P. apply supported_spec in H. rewrite H. cbn [bind]. fold (barred v u). apply barred_spec' in P. rewrite P. reflexivity.
  - intros H P. apply supported_spec in H. rewrite H. cbn [bind]. fold (barred v u). apply barred_spec in P. rewrite P.
    unfold opens. destruct (str_eqb_spec s (lit "file")) as [F|F]; eexists; split; try reflexivity; auto.
Qed.
Print Assumptions C115_uri.
(** A relative reference, without a base. *)
Theorem C115_relative : forall v u, ~ has_scheme u -> v_resolve v (RString u) None = Err ValueError.
Proof.
  intros v u H. unfold v_resolve. destruct (get_scheme u) as [s|] eqn:E; [|reflexivity].
  exfalso. apply H. apply is_absolute_iff. unfold is_absolute. now rewrite E.
Qed.
Print Assumptions C115_relative.
Lemma get_scheme_rec : forall c k, scheme c = Some k -> scheme_name k -> get_scheme (recompose c) = Some k.
Proof. intros c k E Hk. unfold recompose. rewrite E, <- app_assoc. now apply get_scheme_Some. Qed.
Lemma not_abs_ref : forall R, legal R -> scheme R = None -> is_absolute (recompose R) = false.
Proof.
  intros R L E. unfold is_absolute. destruct (get_scheme (recompose R)) as [s|] eqn:G; auto.
  apply scheme_component in G; auto. congruence.
Qed.
Lemma absolutize_limit : forall r b k, is_absolute r = false -> get_scheme b = Some k -> existsb (str_eqb k) SCHEMES = true ->
  absolutize r b (Some SCHEMES) = absolutize r b None.
Proof.
  intros r b k A G E. unfold absolutize. rewrite A. unfold is_absolute. rewrite G. cbn [negb].
  unfold SCHEMES in *. cbv beta iota zeta. rewrite E. reflexivity.
Qed.
Lemma no_slash : forall c k, scheme c = Some k -> scheme_name k -> starts_slash (recompose c) = false.
Proof.
  intros c k E (x & t & -> & Hx & _). unfold recompose. rewrite E. cbn. destruct (N.eqb_spec x 47) as [-> |]; [discriminate Hx|reflexivity].
Qed.
(** A relative reference against a base: the target of RFC 3986, section 5.2, is what
    is opened, with the scheme of the base, which must be supported. *)
Theorem C115_base_partial : forall v R B k,
  legal R -> legal B -> frag_lf_free R -> frag_lf_free B -> scheme R = None -> scheme B = Some k -> scheme_name k -> hierarchical B ->
  ~ (authority R = None /\ path R = [] /\ query R = Some []) ->
  (~ is_supported k -> v_resolve v (RString (recompose R)) (Some (recompose B)) = Err (IriError 201)) /\
  (is_supported k -> exists T, rfc_transform R B = Some T /\ scheme T = Some k /\
     (~ permitted (rules v) (recompose T) -> v_resolve v (RString (recompose R)) (Some (recompose B)) = Err (IriError 300)) /\
     (permitted (rules v) (recompose T) -> exists o, opens k (recompose T) o /\ v_resolve v (RString (recompose R)) (Some (recompose B)) = Ok o)).
Proof.
  intros v R B k LR LB FR FB SR SB Hk HB Hq.
  pose proof (not_abs_ref R LR SR) as NA. pose proof (get_scheme_rec B k SB Hk) as GB.
  unfold v_resolve, v_absolutize. rewrite (no_slash B k SB Hk), andb_false_r. split.
  - intro H. apply supported_spec' in H. unfold absolutize. rewrite NA. unfold is_absolute at 1. rewrite GB. cbn [negb].
    unfold SCHEMES in *. cbv beta iota zeta. rewrite H. reflexivity.
  - intro H. apply supported_spec in H.
    destruct (absolutize_relative R B LR LB FR FB SR) as (T & ET & EA); auto.
    { apply is_absolute_iff. unfold is_absolute. now rewrite GB. }
    exists T. split; [exact ET|].
    assert (ST : scheme T = Some k).
    { unfold rfc_transform in ET. rewrite SR in ET. unfold omap in ET. destruct (authority R).
      - destruct (rfc_remove_dot_segments (path R)); [|discriminate ET]. injection ET as <-. exact SB.
      - destruct (path R); [injection ET as <-; exact SB|].
        destruct (if n =? 47 then _ else _); [|discriminate ET]. injection ET as <-. exact SB. }
    split; [exact ST|]. rewrite (absolutize_limit _ _ k NA GB H), EA. cbn [bind]. rewrite (get_scheme_rec T k ST Hk).
    fold (barred v (recompose T)). split; intro P.
    + apply barred_spec' in P. rewrite P. reflexivity.
    + apply barred_spec in P. rewrite P. unfold opens.
      destruct (str_eqb_spec k (lit "file")) as [F|F]; eexists; split; try reflexivity; auto.
Qed.
Print Assumptions C115_base_partial.
(** A lenient resolver takes a base that is a path as that of a file. *)
Theorem C115_lenient : forall rs ref p,
  v_resolve {| v_rules := rs; v_lenient := true |} ref (Some (lit "/" ++ p)) =
  v_resolve {| v_rules := rs; v_lenient := true |} ref (Some (lit "file:///" ++ p)).
Proof. intros rs [s|u] p; reflexivity. Qed.
Print Assumptions C115_lenient.
(** Unsupported schemes are to be refused; with a base they are not. *)
Theorem C115_scheme_refuted : exists u base, get_scheme u = Some (lit "gopher") /\ ~ is_supported (lit "gopher") /\
  v_resolve DEFAULT_RESOLVER (RString u) (Some base) = Ok (OpenUrl u).
Proof.
  exists (lit "gopher://spam/"), (lit "http://spam/"). split; [reflexivity|]. split; [|reflexivity].
  apply supported_spec'. reflexivity.
Qed.
Print Assumptions C115_scheme_refuted.
(** A Request cannot be resolved by any resolver. *)
Theorem C115_request_refuted : forall v url base, permitted (rules v) url -> v_resolve v (RRequest url) base = Err NameError.
Proof. intros v url base H. unfold v_resolve. cbn [bind]. fold (barred v url). apply barred_spec in H. now rewrite H. Qed.
Print Assumptions C115_request_refuted.
Example C115_case : let v := {| v_rules := [ {| r_match := fun u => prefixb (lit "http://spam/") u; r_allow := true |} ]; v_lenient := true |} in
  v_resolve v (RString (lit "../egg?q")) (Some (lit "http://spam/a/b")) = Ok (OpenUrl (lit "http://spam/egg?q")) /\
  v_resolve v (RString (lit "//ham/")) (Some (lit "http://spam/a/b")) = Err (IriError 300) /\
  v_resolve DEFAULT_RESOLVER (RString (lit "b.xml")) (Some (lit "/etc/a.xml")) = Ok (OpenFile (lit "file:///etc/b.xml")).
Proof. repeat split; vm_compute; reflexivity. Qed.

(** The registry of schemes: the handler of the scheme, else the default one, else the resolver. *)
Inductive chosen {H : Type} (handlers : list (option str * H)) (k : option str) : option H -> Prop :=
| chosen_first : forall before h after, handlers = before ++ (k, h) :: after -> ~ In k (map fst before) -> chosen handlers k (Some h)
| chosen_none : ~ In k (map fst handlers) -> chosen handlers k None.
Lemma handler_spec : forall H (l : list (option str * H)) k, chosen l k (handler H l k).
Proof.
  intros H l k. induction l as [|[k' h] l IH]; cbn [handler]; [apply chosen_none; auto|].
  set (b := match k with None => _ | Some _ => _ end).
  assert (E : b = true <-> k' = k).
  { unfold b. destruct k as [k|], k' as [k'|]; try (split; intro X; (discriminate X || congruence)). rewrite str_eqb_eq. split; congruence. }
  destruct b.
  - assert (k' = k) as -> by (now apply E). apply (chosen_first _ _ [] h l); auto.
  - assert (D : k' <> k) by (intro X; apply E in X; discriminate X).
    destruct IH as [before h' after -> Hn|Hn].
    + apply (chosen_first _ _ ((k', h) :: before) h' after); auto. cbn. intros [X|X]; auto.
    + apply chosen_none. cbn. intros [X|X]; auto.
Qed.
Theorem C115_registry : forall H v (handlers : list (option str * H)) u base s,
  (get_scheme u = Some s \/ (get_scheme u = None /\ exists b, base = Some b /\ get_scheme b = Some s)) ->
  (forall h, chosen handlers (Some s) (Some h) -> registry_resolve H v handlers u base = Ok (Handled H h u base)) /\
  (forall h, chosen handlers (Some s) None -> chosen handlers None (Some h) -> registry_resolve H v handlers u base = Ok (Handled H h u base)) /\
  (chosen handlers (Some s) None -> chosen handlers None None ->
   registry_resolve H v handlers u base = bind (v_resolve v (RString u) base) (fun o => Ok (Opened H o))).
Proof.
  intros H v handlers u base s Hs.
  assert (fun_chosen : forall k o, chosen handlers k o -> handler H handlers k = o).
  { intros k o C. pose proof (handler_spec H handlers k) as C'. destruct C as [b h a E Nb|Nh].
    - revert C'. subst handlers. clear Hs. induction b as [|[k' h'] b IH]; intro C'.
      + cbn [app handler]. destruct k as [k|]; auto. now rewrite (proj2 (str_eqb_eq k k) eq_refl).
      + cbn [app handler]. assert (D : k' <> k) by (intro; apply Nb; now left).
        assert (Eb : (match k, k' with None, None => true | Some a, Some b => str_eqb a b | _, _ => false end) = false).
        { destruct k as [k|], k' as [k'|]; auto; [|congruence]. destruct (str_eqb_spec k k'); congruence. }
        rewrite Eb. apply IH; [intro; apply Nb; now right|apply handler_spec].
    - destruct C' as [b h a E Nb|]; auto. exfalso. apply Nh. rewrite E, map_app. apply in_or_app. right. now left. }
  unfold registry_resolve.
  assert (E : (match get_scheme u with Some s => Ok s | None => match (match base with Some b => get_scheme b | None => None end) with Some s => Ok s | None => Err NameError end end) = Ok s).
  { destruct Hs as [-> |(-> & b & -> & ->)]; reflexivity. }
  rewrite E. cbn [bind]. split; [|split].
  - intros h C. apply fun_chosen in C. now rewrite C.
  - intros h C D. apply fun_chosen in C. apply fun_chosen in D. now rewrite C, D.
  - intros C D. apply fun_chosen in C. apply fun_chosen in D. now rewrite C, D.
Qed.
Print Assumptions C115_registry.
(** Handlers are called for what the rules forbid; and without a scheme the error is not the documented one. *)
Theorem C115_registry_refuted :
  (exists v u, ~ permitted (rules v) u /\ registry_resolve unit v [(None, tt)] u None = Ok (Handled unit tt u None)) /\
  (forall H v handlers u, ~ has_scheme u -> registry_resolve H v handlers u None = Err NameError).
Proof.
  split.
  - exists {| v_rules := [ {| r_match := fun _ => true; r_allow := false |} ]; v_lenient := true |}, (lit "http://spam/").
    split; [apply barred_spec'; reflexivity|reflexivity].
  - intros H v handlers u N. unfold registry_resolve. destruct (get_scheme u) as [s|] eqn:E; [|reflexivity].
    exfalso. apply N. apply is_absolute_iff. unfold is_absolute. now rewrite E.
Qed.
Print Assumptions C115_registry_refuted.
Example C115_registry_case :
  registry_resolve N DEFAULT_RESOLVER [(Some (lit "spam"), 1); (None, 2)] (lit "x") (Some (lit "spam:y")) = Ok (Handled N 1 (lit "x") (Some (lit "spam:y"))) /\
  registry_resolve N DEFAULT_RESOLVER [(Some (lit "spam"), 1)] (lit "http://x/") None = Ok (Opened N (OpenUrl (lit "http://x/"))).
Proof. split; vm_compute; reflexivity. Qed.

(** ** C116: input sources *)
(** Markup is never opened, and its base is the given one or a fresh one. *)
Theorem C116_markup : forall isxml isfile ospath urn s uri v x, s <> [] -> x = true \/ isxml s = true ->
  inputsource isxml isfile ospath urn (AText s) uri v x =
  Ok (SText s, match uri with None | Some [] => urn | Some u => u end).
Proof.
  intros isxml isfile ospath urn s uri v x Hs H. unfold inputsource. destruct s as [|c s]; [congruence|].
  assert (E : x || isxml (c :: s) = true) by (apply orb_true_iff; exact H). rewrite E. destruct uri as [[|]|]; reflexivity.
Qed.
Print Assumptions C116_markup.
(** Whatever else is opened is permitted by the resolver, and its URI is the base. *)
Theorem C116_jail : forall isxml isfile ospath urn arg uri v x o base,
  inputsource isxml isfile ospath urn arg uri (Some v) x = Ok (SOpened o, base) ->
  permitted (rules v) base /\ opened o = base.
Proof.
  assert (U : forall v u o, v_resolve v (RString u) None = Ok o -> opened o = u).
  { intros v u o H. unfold v_resolve in H. destruct (get_scheme u) as [s|]; [|discriminate H].
    destruct (existsb (str_eqb s) SCHEMES); [|discriminate H]. cbn [bind] in H. destruct (_ && _); [discriminate H|].
    destruct (str_eqb s (lit "file")); injection H as <-; reflexivity. }
  intros isxml isfile ospath urn arg uri v x o base H. unfold inputsource in H.
  destruct arg as [|[|c s]|url].
  - discriminate H.
  - discriminate H.
  - destruct (x || isxml (c :: s)); [discriminate H|]. destruct (is_absolute (c :: s) && negb (isfile (c :: s))).
    + destruct (v_resolve v (RString (c :: s)) None) as [o'|] eqn:E; cbn [bind] in H; [|discriminate H]. injection H as -> <-.
      pose proof (U _ _ _ E) as Q. apply C115_jail in E. rewrite Q in E. auto.
    + destruct (_ <? 1024); [|discriminate H]. destruct (ospath (c :: s)) as [u|]; cbn [bind] in H; [|discriminate H].
      destruct (v_resolve v (RString u) None) as [o'|] eqn:E; cbn [bind] in H; [|discriminate H]. injection H as -> <-.
      pose proof (U _ _ _ E) as Q. apply C115_jail in E. rewrite Q in E. auto.
  - exfalso. unfold v_resolve in H. cbn [bind] in H. destruct (_ && _); discriminate H.
Qed.
Print Assumptions C116_jail.
(** Other text: a URI that is not the name of a file; else a path, when shorter than 1024 characters. *)
Theorem C116_text : forall isxml isfile ospath urn s uri v, s <> [] -> isxml s = false ->
  let made u := bind (v_resolve v (RString u) None) (fun o => Ok (SOpened o, u)) in
  (has_scheme s -> isfile s = false -> inputsource isxml isfile ospath urn (AText s) uri (Some v) false = made s) /\
  ((~ has_scheme s \/ isfile s = true) -> (length s < 1024)%nat ->
    inputsource isxml isfile ospath urn (AText s) uri (Some v) false = bind (ospath s) made) /\
  ((~ has_scheme s \/ isfile s = true) -> (1024 <= length s)%nat ->
    inputsource isxml isfile ospath urn (AText s) uri (Some v) false = Err ValueError).
Proof.
  intros isxml isfile ospath urn s uri v Hs Hx made. unfold inputsource. destruct s as [|c s]; [congruence|].
  rewrite Hx. cbn [orb]. split; [|split].
  - intros A F. apply is_absolute_iff in A. rewrite A, F. reflexivity.
  - intros A L. assert (E : is_absolute (c :: s) && negb (isfile (c :: s)) = false).
    { destruct A as [A|A]; [|rewrite A; apply andb_false_r]. destruct (is_absolute (c :: s)) eqn:E; auto. exfalso. apply A. now apply is_absolute_iff. }
    rewrite E. destruct (N.ltb_spec (N.of_nat (length (c :: s))) 1024); [reflexivity|]. exfalso. revert L. clear -H. intro L.
    assert (N.of_nat 1024 = 1024) as K by reflexivity. lia.
  - intros A L. assert (E : is_absolute (c :: s) && negb (isfile (c :: s)) = false).
    { destruct A as [A|A]; [|rewrite A; apply andb_false_r]. destruct (is_absolute (c :: s)) eqn:E; auto. exfalso. apply A. now apply is_absolute_iff. }
    rewrite E. destruct (N.ltb_spec (N.of_nat (length (c :: s))) 1024); [|reflexivity]. exfalso. revert L. clear -H. intro L.
    assert (N.of_nat 1024 = 1024) as K by reflexivity. lia.
Qed.
Print Assumptions C116_text.
(** The base URI given for a URI is not used. *)
Theorem C116_uri_refuted : exists s u o base, inputsource (fun _ => false) (fun _ => false) Ok (lit "urn:x") (AText s) (Some u) None false = Ok (o, base) /\ base <> u /\ u <> [].
Proof. exists (lit "http://spam/"), (lit "http://egg/"), (SOpened (OpenUrl (lit "http://spam/"))), (lit "http://spam/"). split; [vm_compute; reflexivity|]. split; discriminate. Qed.
Print Assumptions C116_uri_refuted.
(** What a source refers to is opened although the resolver of the source forbids it. *)
Theorem C116_reference_refuted : exists v u, (forall x, ~ permitted (rules v) x) /\
  source_resolve (fun _ => false) (fun _ => false) Ok (lit "urn:x") v u (Some (lit "http://spam/a")) = Ok (SOpened (OpenUrl (lit "http://spam/u")), lit "http://spam/u").
Proof.
  exists {| v_rules := [ {| r_match := fun _ => true; r_allow := false |} ]; v_lenient := true |}, (lit "u").
  split; [intro x; apply barred_spec'; reflexivity|vm_compute; reflexivity].
Qed.
Print Assumptions C116_reference_refuted.
Example C116_case :
  inputsource (fun s => prefixb (lit "<") s) (fun _ => false) (fun s => Ok (lit "file:///" ++ s)) (lit "urn:x") (AText (lit "a.xml")) None None false =
    Ok (SOpened (OpenFile (lit "file:///a.xml")), lit "file:///a.xml") /\
  inputsource (fun s => prefixb (lit "<") s) (fun _ => false) (fun s => Ok (lit "file:///" ++ s)) (lit "urn:x") (AText (lit "<a/>")) (Some (lit "b")) None false =
    Ok (SText (lit "<a/>"), lit "b").
Proof. split; vm_compute; reflexivity. Qed.

(** ** C117: dictionaries of URIs *)
Lemma d_get_set : forall V d k v k', d_get V (d_set V d k v) k' = if str_eqb k' k then Some v else d_get V d k'.
Proof.
  intros V d k v k'. induction d as [|[a x] d IH]; cbn [d_set d_get]; [reflexivity|].
  destruct (str_eqb_spec k a) as [<-|E]; cbn [d_get].
  - now destruct (str_eqb k' k).
  - rewrite IH. destruct (str_eqb_spec k' a) as [->|]; auto. destruct (str_eqb_spec a k); congruence.
Qed.
Lemma d_get_del : forall V d k k', d_get V (d_del V d k) k' = if str_eqb k' k then None else d_get V d k'.
Proof.
  intros V d k k'. induction d as [|[a x] d IH]; cbn [d_del filter d_get fst]; [now destruct (str_eqb k' k)|].
  destruct (str_eqb_spec k a) as [<-|E]; cbn [negb].
  - unfold d_del in IH. rewrite IH. now destruct (str_eqb k' k).
  - cbn [d_get]. unfold d_del in IH. rewrite IH. destruct (str_eqb_spec k' a) as [->|]; auto. destruct (str_eqb_spec a k); congruence.
Qed.
Lemma eqb_key : forall u v, uri u -> uri v -> (str_eqb (key v) (key u) = true <-> equivalent u v).
Proof. intros u v Hu Hv. rewrite str_eqb_eq, <- key_equivalent by assumption. split; auto. Qed.
Theorem C117_set : forall V d u x, uri u -> exists d', setitem V d u x = Ok d' /\ forall v, uri v ->
  (equivalent u v -> getitem V d' v = Ok x /\ contains V d' v = Ok true) /\
  (~ equivalent u v -> getitem V d' v = getitem V d v /\ contains V d' v = contains V d v).
Proof.
  intros V d u x Hu. unfold setitem, getitem, contains. rewrite (normalizekey_ok u) by apply Hu. cbn [bind].
  eexists; split; [reflexivity|]. intros v Hv. rewrite (normalizekey_ok v) by apply Hv. cbn [bind]. rewrite d_get_set.
  pose proof (eqb_key u v Hu Hv) as E. split; intro H.
  - apply E in H. rewrite H. auto.
  - destruct (str_eqb (key v) (key u)); auto. exfalso. apply H. now apply E.
Qed.
Print Assumptions C117_set.
Theorem C117_del : forall V d u, uri u ->
  (contains V d u = Ok false /\ getitem V d u = Err KeyError /\ delitem V d u = Err KeyError) \/
  (contains V d u = Ok true /\ exists d', delitem V d u = Ok d' /\ forall v, uri v ->
   (equivalent u v -> getitem V d' v = Err KeyError /\ contains V d' v = Ok false) /\
   (~ equivalent u v -> getitem V d' v = getitem V d v /\ contains V d' v = contains V d v)).
Proof.
  intros V d u Hu. unfold delitem, getitem, contains. rewrite (normalizekey_ok u) by apply Hu. cbn [bind].
  destruct (d_get V d (key u)) as [x|]; [right|left; auto]. split; [reflexivity|].
  eexists; split; [reflexivity|]. intros v Hv. rewrite (normalizekey_ok v) by apply Hv. cbn [bind]. rewrite d_get_del.
  pose proof (eqb_key u v Hu Hv) as E. split; intro H.
  - apply E in H. rewrite H. auto.
  - destruct (str_eqb (key v) (key u)); auto. exfalso. apply H. now apply E.
Qed.
Print Assumptions C117_del.
(** Any history of item assignments and deletions. *)
Inductive history (V : Type) : dict V -> Prop :=
| h_empty : history V []
| h_set : forall d u x d', history V d -> uri u -> setitem V d u x = Ok d' -> history V d'
| h_del : forall d u d', history V d -> uri u -> delitem V d u = Ok d' -> history V d'.
Lemma d_set_keys : forall V d k v a, In a (map fst (d_set V d k v)) <-> a = k \/ In a (map fst d).
Proof.
  intros V d k v a. induction d as [|[b x] d IH]; cbn [d_set map fst In].
  - split; intros [H|[]]; auto.
  - destruct (str_eqb_spec k b) as [<-|E]; cbn [map fst In]; [|rewrite IH]; split; intuition.
Qed.
Lemma d_set_nodup : forall V d k v, NoDup (map fst d) -> NoDup (map fst (d_set V d k v)).
Proof.
  intros V d k v. induction d as [|[b x] d IH]; intro H; cbn [d_set map fst]; [repeat constructor; auto|].
  cbn [map fst] in H. inversion H; subst. destruct (str_eqb_spec k b) as [<-|E]; cbn [map fst]; constructor; auto.
  rewrite d_set_keys. intros [X|X]; auto.
Qed.
Lemma history_inv : forall V d, history V d -> NoDup (map fst d) /\ forall k, In k (map fst d) -> uri k /\ key k = k.
Proof.
  intros V d H. induction H as [|d u x d' H [I1 I2] Hu E|d u d' H [I1 I2] Hu E].
  - split; [constructor|intros k []].
  - unfold setitem in E. rewrite (normalizekey_ok u) in E by apply Hu. cbn [bind] in E. injection E as <-.
    split; [now apply d_set_nodup|]. intros k Hk. apply d_set_keys in Hk as [-> |Hk]; auto.
    destruct (uri_key u Hu) as [Q U]. split; auto. symmetry. now apply equivalent_key.
  - unfold delitem in E. rewrite (normalizekey_ok u) in E by apply Hu. cbn [bind] in E.
    destruct (d_get V d (key u)); [|discriminate E]. injection E as <-.
    assert (Sub : forall k, In k (map fst (d_del V d (key u))) -> In k (map fst d)).
    { intros k Hk. apply in_map_iff in Hk as (e & <- & He). apply filter_In in He as [He _]. now apply in_map. }
    split; [|auto]. clear -I1. unfold d_del. induction d as [|e d IH]; cbn [filter map]; [constructor|].
    cbn [map] in I1. inversion I1 as [|? ? N1 N2]; subst. destruct (negb _); auto. cbn [map]. constructor; auto.
    intro Hk. apply N1. apply in_map_iff in Hk as (e' & E & He). apply filter_In in He as [He _]. rewrite <- E. now apply in_map.
Qed.
Lemma d_get_In : forall V d k v, NoDup (map fst d) -> (d_get V d k = Some v <-> In (k, v) d).
Proof.
  intros V d k v. induction d as [|[b x] d IH]; intro H; cbn [d_get]; [split; [intro E; discriminate E|intros []]|].
  cbn [map fst] in H. inversion H; subst. destruct (str_eqb_spec k b) as [->|E].
  - split; [intro E; injection E as <-; now left|]. intros [E|E]; [congruence|]. exfalso. apply H2. apply in_map_iff. exists (b, v). auto.
  - rewrite IH by assumption. split; [now right|]. intros [X|X]; [congruence|auto].
Qed.
(** Iteration gives every item once, under a URI equivalent to those it can be looked up with. *)
Theorem C117_items : forall V d, history V d -> exists items, iteritems V d = Ok items /\
  NoDup (map fst items) /\
  (forall k, In k (map fst items) -> uri k) /\
  (forall k k', In k (map fst items) -> In k' (map fst items) -> equivalent k k' -> k = k') /\
  (forall u x, uri u -> (getitem V d u = Ok x <-> exists k, In (k, x) items /\ equivalent u k)).
Proof.
  intros V d H. apply history_inv in H as [ND HK]. exists d.
  assert (G : forall l, (forall e, In e l -> In e d) -> iteritems_ V d (map fst l) = Ok l).
  { induction l as [|[k x] l IH]; intro S; [reflexivity|]. cbn [map fst iteritems_].
    assert (Hk : In k (map fst d)) by (apply in_map_iff; exists (k, x); split; auto; apply S; now left).
    destruct (HK k Hk) as [Uk Kk]. unfold getitem. rewrite (normalizekey_ok k) by apply Uk. cbn [bind]. rewrite Kk.
    assert (E : d_get V d k = Some x) by (apply d_get_In; auto; apply S; now left). rewrite E. cbn [bind].
    rewrite IH by (intros e He; apply S; now right). reflexivity. }
  split; [apply G; auto|]. split; [exact ND|]. split; [intros k Hk; now apply HK|]. split.
  - intros k k' Hk Hk' Q. apply equivalent_key in Q. destruct (HK k Hk) as [_ <-]. destruct (HK k' Hk') as [_ E]. congruence.
  - intros u x Hu. unfold getitem. rewrite (normalizekey_ok u) by apply Hu. cbn [bind]. split.
    + destruct (d_get V d (key u)) as [y|] eqn:E; intro X; [|discriminate X]. injection X as ->.
      exists (key u). split; [now apply d_get_In|]. now apply uri_key.
    + intros (k & Hk & Q). apply equivalent_key in Q. destruct (HK k) as [_ E]; [apply in_map_iff; exists (k, x); auto|].
      apply d_get_In in Hk; auto. rewrite Q, E, Hk. reflexivity.
Qed.
Print Assumptions C117_items.
(** get does not find what was stored under the same key. *)
Theorem C117_get_refuted : exists u d, uri u /\ setitem N [] u 1 = Ok d /\ contains N d u = Ok true /\ get N d u = None.
Proof.
  exists (lit "http://spam/%7Ex"), [(lit "http://spam/~x", 1)]. split; [|repeat split; vm_compute; reflexivity].
  split; [exists (lit "http"), (lit "//spam/%7Ex"); split; [reflexivity|]; exists 104, (lit "ttp"); repeat split; repeat constructor|].
  apply (text_app (lit "http://spam/") (lit "%7Ex")).
  - split; [cbn; repeat constructor; discriminate|]. cbn. intros K; repeat destruct K as [K|K]; try discriminate K; auto.
  - apply (text_app [37; 55; 69] (lit "x")); [apply text_esc; unfold any_hex; cbn; tauto|apply text_char; discriminate].
Qed.
Print Assumptions C117_get_refuted.
(** Items given to the constructor under a key that is not normal are not found. *)
Theorem C117_constructor_refuted : exists u, uri u /\ getitem N (construct N [(u, 1)]) u = Err KeyError.
Proof.
  exists (lit "HTTP:x"). split; [|vm_compute; reflexivity].
  split; [exists (lit "HTTP"), (lit "x"); split; [reflexivity|]; exists 72, (lit "TTP"); repeat split; repeat constructor|].
  split; [cbn; repeat constructor; discriminate|]. cbn. intros K; repeat destruct K as [K|K]; try discriminate K; auto.
Qed.
Print Assumptions C117_constructor_refuted.
(** A triplet in mixed case is not taken for the same in upper case (RFC 3986, 6.2.2.1). *)
Theorem C117_case_refuted : exists d, setitem N [] (lit "http://spam/%aF") 1 = Ok d /\ getitem N d (lit "http://spam/%AF") = Err KeyError.
Proof. eexists; split; vm_compute; reflexivity. Qed.
Print Assumptions C117_case_refuted.
Example C117_case : exists d, setitem N [] (lit "FILE://localhost/%7e%af") 1 = Ok d /\ getitem N d (lit "file:///~%AF") = Ok 1 /\ iteritems N d = Ok [(lit "file:///~%AF", 1)].
Proof. eexists; repeat split; vm_compute; reflexivity. Qed.
