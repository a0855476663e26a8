(** * Properties C23 and C24: the attribute and namespace maps

    Statements only; proofs are in HashProbe and HashMap, the vocabulary in
    HashSpec.  [hash] is any function from keys to (unsigned) machine words, in
    fact to any numbers. *)
From Coq Require Import NArith ZArith String List Bool Lia Arith Permutation.
From Verif Require Import PyStr PyErr HashModel HashSpec HashProbe HashMap.
Import ListNotations.
Local Open Scope nat_scope.

Lemma opt_eqb_eq a b : opt_eqb a b = true <-> a = b.
Proof. destruct a as [x|], b as [y|]; cbn; try (split; congruence). rewrite str_eqb_eq. split; congruence. Qed.
Lemma expanded_eqb_eq a b : expanded_eqb a b = true <-> a = b.
Proof. destruct a as [u x], b as [w y]. unfold expanded_eqb. cbn. rewrite andb_true_iff, opt_eqb_eq, str_eqb_eq. split; [intros [-> ->]; reflexivity|intros [= -> ->]; auto]. Qed.
Definition str_dec : forall a b : str, {a = b} + {a <> b} := list_eq_dec N.eq_dec.
Definition prefix_dec : forall a b : option str, {a = b} + {a <> b}.
Proof. decide equality. apply str_dec. Defined.
Definition expanded_dec : forall a b : expanded, {a = b} + {a <> b}.
Proof. decide equality; [apply str_dec|apply prefix_dec]. Defined.

Section Generic.
Context {K V : Type}.
Variable eqb : K -> K -> bool.
Variable hash : K -> N.
Hypothesis eqb_eq : forall a b, eqb a b = true <-> a = b.
Variable eq_dec : forall a b : K, {a = b} + {a <> b}.
Notation after := (mrun eqb hash (new_map (K := K) (V := V))).

Lemma mstep_good (m : hmap K V) o : good_map m -> good_map (match mstep eqb hash m o with Ok m' => m' | Err _ => m end) /\
  (mstep eqb hash m o = Err Diverges -> False).
Proof.
  intros G. destruct o as [k v|k v|k]; cbn [mstep].
  - destruct (set_item_ok eqb hash eqb_eq m k v G) as [m' [E [G' _]]]. rewrite E. split; [exact G'|discriminate].
  - destruct (set_node_ok eqb hash eqb_eq m k v G) as [m' [E [G' _]]]. rewrite E. split; [exact G'|discriminate].
  - destruct (del_node_ok eqb hash eqb_eq m k G) as [[m' [w [E [G' _]]]]|[E _]]; rewrite E; (split; [assumption|discriminate]).
Qed.
Lemma mrun_app m a b : mrun eqb hash m (a ++ b) = mrun (V := V) eqb hash (mrun eqb hash m a) b.
Proof. apply fold_left_app. Qed.
Lemma after_good ops : good_map (after ops).
Proof.
  induction ops as [|o ops IH] using rev_ind; [apply (new_good eqb hash)|]. rewrite mrun_app. cbn [mrun fold_left]. now apply mstep_good.
Qed.

(** The abstract history. *)
Definition expect (f : amap K V) (o : mop K V) : amap K V :=
  match o with SetItem k v => put eq_dec f k v | SetNode k v => put eq_dec f k v | DelItem k => without eq_dec f k end.
Definition expected (ops : list (mop K V)) : amap K V := fold_left expect ops no_keys.
Definition no_delete (ops : list (mop K V)) : Prop := forall k, ~ In (DelItem k) ops.

Lemma after_findable ops : no_delete ops -> findable eqb hash (m_table (after ops)) /\ forall k v, In (k, v) (entries (m_table (after ops))) <-> expected ops k = Some v.
Proof.
  induction ops as [|o ops IH] using rev_ind; intros ND.
  - split; [apply (new_good eqb hash)|]. intros k v. unfold new_map, mrun. cbn [fold_left m_table]. rewrite entries_repeat. cbn. split; [tauto|discriminate].
  - destruct IH as [F E]; [intros k I; apply (ND k), in_or_app; auto|]. pose proof (after_good ops) as G. unfold expected in *. rewrite mrun_app, fold_left_app. cbn [mrun fold_left].
    assert (forall m' k v, mstep eqb hash (after ops) o = Ok m' -> stored (after ops) m' k v -> expect (fold_left expect ops no_keys) o = put eq_dec (fold_left expect ops no_keys) k v ->
      forall k' v', In (k', v') (entries (m_table m')) <-> expect (fold_left expect ops no_keys) o k' = Some v') as W.
    { intros m' k v _ S X k' v'. rewrite (S k' v'), X, E. unfold put. destruct (eq_dec k' k) as [->|N]; split.
      - intros [[_ ->]|[N _]]; [reflexivity|congruence].
      - intros [= ->]. auto.
      - intros [[C _]|[_ H]]; [congruence|exact H].
      - auto. }
    destruct o as [k v|k v|k]; cbn [mstep] in *.
    + destruct (set_item_ok eqb hash eqb_eq (after ops) k v G) as [m' [X [_ FS]]]. destruct (FS F) as [F' S]. rewrite X. split; [exact F'|]. eapply W; eauto.
    + destruct (set_node_ok eqb hash eqb_eq (after ops) k v G) as [m' [X [_ FS]]]. destruct (FS F) as [F' S]. rewrite X. split; [exact F'|]. eapply W; eauto.
    + exfalso. apply (ND k), in_or_app. right; left; reflexivity.
Qed.

(** ** C24 *)
(** [Diverges] is the outcome of a probe loop that does not stop.  After any
    history of calls, including deletions, no lookup, membership test,
    insertion, assignment or deletion diverges; the listing of items never leaves
    the table. *)
Theorem C24_generic : forall ops k v,
  let m := after ops in
  (exists o, get_node eqb hash m k = Ok o) /\ (exists b, contains eqb hash m k = Ok b) /\
  (exists m', set_node eqb hash m k v = Ok m') /\ (exists m', set_item eqb hash m k v = Ok m') /\
  ((exists m', del_node eqb hash m k = Ok m') \/ del_node eqb hash m k = Err AttributeError) /\
  exists l, items m = Ok l.
Proof.
  intros ops k v m. pose proof (after_good ops) as G. fold m in G. destruct (get_ok eqb hash eqb_eq m k G) as [o [E _]].
  split; [eauto|]. split; [unfold contains; rewrite E; cbn; eauto|].
  split; [destruct (set_node_ok eqb hash eqb_eq m k v G) as [m' [X _]]; eauto|]. split; [destruct (set_item_ok eqb hash eqb_eq m k v G) as [m' [X _]]; eauto|].
  split; [destruct (del_node_ok eqb hash eqb_eq m k G) as [[m' [w [X _]]]|[X _]]; eauto|].
  unfold items. destruct G as [_ ->]. rewrite collect_all. eauto.
Qed.

(** ** C23 *)
Theorem C23_generic : forall ops, no_delete ops ->
  let m := after ops in let f := expected ops in
  (forall k, get_node eqb hash m k = Ok (f k)) /\
  (forall k, contains eqb hash m k = Ok (match f k with Some _ => true | None => false end)) /\
  lists (iterate m) f /\ items m = Ok (iterate m) /\ len m = length (iterate m).
Proof.
  intros ops ND m f. pose proof (after_good ops) as G. destruct (after_findable ops ND) as [F E]. fold m f in G, F, E |- *.
  assert (forall k, get_node eqb hash m k = Ok (f k)) as GET.
  { intros k. destruct (get_ok eqb hash eqb_eq m k G) as [o [O1 [O2 O3]]]. rewrite O1. f_equal. destruct o as [v|].
    - symmetry. apply E, O2. reflexivity.
    - destruct (f k) as [v|] eqn:X; [|reflexivity]. apply E in X. now apply (O3 F) in X. }
  split; [exact GET|]. split; [intros k; unfold contains; rewrite GET; reflexivity|].
  split; [split; [now apply (findable_nodup eqb hash)|exact E]|]. destruct G as [_ U]. split; [unfold items; rewrite U; apply collect_all|exact U].
Qed.

(** The last call may be a deletion. *)
Theorem C23_delete_generic : forall ops k, no_delete ops ->
  let f := expected ops in
  match f k with
  | None => del_node eqb hash (after ops) k = Err AttributeError
  | Some _ => exists m, del_node eqb hash (after ops) k = Ok m /\
      get_node eqb hash m k = Ok None /\ lists (iterate m) (without eq_dec f k) /\ items m = Ok (iterate m) /\ len m = length (iterate m) /\ len (after ops) = S (len m)
  end.
Proof.
  intros ops k ND f. pose proof (after_good ops) as G. destruct (after_findable ops ND) as [F E]. fold f in E.
  destruct (del_node_ok eqb hash eqb_eq (after ops) k G) as [[m [w [D [G' [I S]]]]]|[D N]].
  - apply E in I. rewrite I. exists m. split; [exact D|]. destruct (S F) as [S1 [S2 [S3 S4]]]. split; [exact S3|]. split.
    + split; [exact S2|]. intros k' v'. rewrite iterate_entries, S1, E. unfold without. destruct (eq_dec k' k) as [->|X]; split; [tauto|discriminate|tauto|auto].
    + destruct G' as [_ U]. split; [unfold items; rewrite U; apply collect_all|]. split; [exact U|exact S4].
  - destruct (f k) as [v|] eqn:X; [|exact D]. exfalso. apply E in X. now apply (N F v).
Qed.

(** With any number of deletions, the listings stay consistent with each other
    and a lookup gives nothing that is not in the map. *)
Theorem C23_sound_generic : forall ops,
  let m := after ops in
  items m = Ok (iterate m) /\ len m = length (iterate m) /\ forall k v, get_node eqb hash m k = Ok (Some v) -> In (k, v) (iterate m).
Proof.
  intros ops m. pose proof (after_good ops) as G. fold m in G. split; [unfold items; destruct G as [_ ->]; apply collect_all|]. split; [apply G|].
  intros k v H. destruct (get_ok eqb hash eqb_eq m k G) as [o [O1 [O2 _]]]. rewrite O1 in H. injection H as ->. now apply O2.
Qed.
End Generic.

(** *** The instances *)
Notation attrs_after hash ops := (mrun expanded_eqb hash (new_map (K := expanded) (V := str)) ops) (only parsing).
Notation spaces_after hash ops := (mrun prefix_eqb hash (new_map (K := option str) (V := str)) ops).

Theorem C24_attributes : forall (hash : expanded -> N) ops k v,
  let m := attrs_after hash ops in
  (exists o, get_node expanded_eqb hash m k = Ok o) /\ (exists b, contains expanded_eqb hash m k = Ok b) /\
  (exists m', set_node expanded_eqb hash m k v = Ok m') /\ (exists m', set_item expanded_eqb hash m k v = Ok m') /\
  ((exists m', del_node expanded_eqb hash m k = Ok m') \/ del_node expanded_eqb hash m k = Err AttributeError) /\
  exists l, items m = Ok l.
Proof. intros hash. exact (C24_generic expanded_eqb hash expanded_eqb_eq). Qed.
Print Assumptions C24_attributes.

(** NamespaceMap has no deletion (namespacemap.c:297-302). *)
Theorem C24_namespaces : forall (hash : option str -> N) ops k v,
  let m := spaces_after hash ops in
  (exists o, get_node prefix_eqb hash m k = Ok o) /\ (exists b, contains prefix_eqb hash m k = Ok b) /\ (exists m', set_node prefix_eqb hash m k v = Ok m') /\
  (exists m', set_item prefix_eqb hash m k v = Ok m') /\ exists l, items m = Ok l.
Proof. intros hash ops k v. destruct (C24_generic prefix_eqb hash opt_eqb_eq ops k v) as [A [B [C [D [_ E]]]]]. auto. Qed.
Print Assumptions C24_namespaces.

Theorem C23_map_partial : forall (hash : expanded -> N) ops, no_delete ops ->
  let m := attrs_after hash ops in let f := expected expanded_dec ops in
  (forall k, get_node expanded_eqb hash m k = Ok (f k)) /\
  (forall k, contains expanded_eqb hash m k = Ok (match f k with Some _ => true | None => false end)) /\
  lists (iterate m) f /\ items m = Ok (iterate m) /\ len m = length (iterate m).
Proof. intros hash. exact (C23_generic expanded_eqb hash expanded_eqb_eq expanded_dec). Qed.
Print Assumptions C23_map_partial.

Theorem C23_namespace_map : forall (hash : option str -> N) ops, no_delete ops ->
  let m := spaces_after hash ops in let f := expected prefix_dec ops in
  (forall k, get_node prefix_eqb hash m k = Ok (f k)) /\
  (forall k, contains prefix_eqb hash m k = Ok (match f k with Some _ => true | None => false end)) /\
  lists (iterate m) f /\ items m = Ok (iterate m) /\ len m = length (iterate m).
Proof. intros hash. exact (C23_generic prefix_eqb hash opt_eqb_eq prefix_dec). Qed.
Print Assumptions C23_namespace_map.

Theorem C23_delete_partial : forall (hash : expanded -> N) ops k, no_delete ops ->
  let f := expected expanded_dec ops in
  match f k with
  | None => del_node expanded_eqb hash (attrs_after hash ops) k = Err AttributeError
  | Some _ => exists m, del_node expanded_eqb hash (attrs_after hash ops) k = Ok m /\
      get_node expanded_eqb hash m k = Ok None /\ lists (iterate m) (without expanded_dec f k) /\ items m = Ok (iterate m) /\ len m = length (iterate m) /\ len (attrs_after hash ops) = S (len m)
  end.
Proof. intros hash. exact (C23_delete_generic expanded_eqb hash expanded_eqb_eq expanded_dec). Qed.
Print Assumptions C23_delete_partial.

Theorem C23_sound : forall (hash : expanded -> N) ops,
  let m := attrs_after hash ops in
  items m = Ok (iterate m) /\ len m = length (iterate m) /\ forall k v, get_node expanded_eqb hash m k = Ok (Some v) -> In (k, v) (iterate m).
Proof. intros hash. exact (C23_sound_generic expanded_eqb hash expanded_eqb_eq). Qed.
Print Assumptions C23_sound.

(** The full statement is false.  Deletion empties the slot, and a later lookup
    stops there.  With the hash function of the code, the names "a" and "i"
    collide in a table of eight slots (on a 64-bit machine): after setting both
    and deleting "a", the attribute "i" is still listed but not found; set again,
    it is listed twice. *)
Definition plain (s : string) : expanded := (None, lit s).
Definition collision : list (mop expanded str) := [SetItem (plain "a") (lit "1"); SetItem (plain "i") (lit "2"); DelItem (plain "a")].
Theorem C23_delete_refuted :
  let m := attrs_after attr_hash collision in let m2 := attrs_after attr_hash (collision ++ [SetItem (plain "i") (lit "3")]) in
  expected expanded_dec collision (plain "i") = Some (lit "2") /\
  get_node expanded_eqb attr_hash m (plain "i") = Ok None /\ iterate m = [(plain "i", lit "2")] /\
  del_node expanded_eqb attr_hash m (plain "i") = Err AttributeError /\
  iterate m2 = [(plain "i", lit "3"); (plain "i", lit "2")] /\ len m2 = 2.
Proof. repeat apply conj; vm_compute; reflexivity. Qed.
Print Assumptions C23_delete_refuted.

(** Ten attributes, with collisions, replacements and two resizings. *)
Definition names : list expanded := map (fun s => plain s) ["a"; "i"; "b"; "j"; "c"; "k"; "q"; "y"]%string ++ [(Some (lit "u"), lit "a"); (Some (lit "v"), lit "a")].
Definition filling : list (mop expanded str) := map (fun k => SetItem k (lit "1")) names ++ [SetNode (plain "y") (lit "2"); SetItem (plain "i") (lit "3")].
Example C23_case : no_delete filling /\ length (m_table (attrs_after attr_hash filling)) = 16 /\ len (attrs_after attr_hash filling) = 10 /\
  get_node expanded_eqb attr_hash (attrs_after attr_hash filling) (plain "y") = Ok (Some (lit "2")) /\
  get_node expanded_eqb attr_hash (attrs_after attr_hash filling) (Some (lit "v"), lit "a") = Ok (Some (lit "1")) /\
  get_node expanded_eqb (fun _ => 7%N) (attrs_after (fun _ => 7%N) filling) (plain "i") = Ok (Some (lit "3")) /\
  exists m, del_node expanded_eqb attr_hash (attrs_after attr_hash filling) (plain "j") = Ok m /\ len m = 9.
Proof.
  split; [intros k I; cbn in I; repeat (destruct I as [I|I]; [discriminate|]); destruct I|].
  repeat apply conj; try (vm_compute; reflexivity).
  eexists. split; vm_compute; reflexivity.
Qed.
