(** * C55: modules are combined by import precedence *)
From Coq Require Import NArith String List Bool Lia Arith Sorted.
From Verif Require Import PyStr PyErr XtImport XtImportSpec XtImportProofs.
Import ListNotations.
Local Open Scope nat_scope.

(** ** Reading the modules *)

(** If there are finitely many modules, reading comes to an end.  It succeeds if and
    only if every module that is reached exists and none refers to itself, directly or
    not; the result is then the stylesheet with every reference replaced by what it
    refers to. *)
Theorem C55_load : forall E (world : str -> option (list (written E))) us u,
  (forall v doc, world v = Some doc -> In v us) ->
  match load world (S (List.length us)) [] u with
  | Ok s => unfolds world u s /\ (forall v, reaches world u v -> world v <> None /\ ~ circular world v)
  | Err e => (e = CircularInclude /\ exists v, reaches world u v /\ circular world v) \/
             (e = IncludeNotFound /\ exists v, reaches world u v /\ world v = None)
  end.
Proof.
  intros E world us u Hus. destruct (load world (S (List.length us)) [] u) as [s|e] eqn:El.
  - pose proof (load_unfolds _ _ _ _ _ _ El) as Hu. split; auto. intros v Hr. eapply unfolds_sound; eauto.
  - destruct (load_error _ _ _ _ _ _ El) as [He|[H|H]]; auto; [intros x []|].
    exfalso. apply (load_total E world us Hus (S (List.length us)) [] u); [constructor|intros x []|intros []|cbn [List.length]; lia|congruence].
Qed.
Print Assumptions C55_load.

(** ** Precedences *)

(** Elements of the same precedence are those of one module of the import tree, with
    what it includes; the modules come in post-order.  This assumes that an included
    module imports nothing after an element of the including module; see
    [C55_include_refuted].  Stylesheets given one after the other count as if a
    stylesheet imported them in this order. *)
Theorem C55_precedence_partial : forall E (sheets : list (list (item E))) k, Forall imports_first sheets ->
  of_precedence k (read_all 0 sheets) = nth k (flat_map postorder sheets) [].
Proof. intros. apply (read_all_ok E sheets 0 k); auto. Qed.
Print Assumptions C55_precedence_partial.
(** Nothing gets lost: the elements in the order of reading. *)
Fixpoint reading_item {E} (i : item E) : list E := match i with Elem e => [e] | Combine _ s => flat_map reading_item s end.
Theorem C55_complete : forall E (sheets : list (list (item E))),
  map fst (read_all 0 sheets) = flat_map (flat_map reading_item) sheets /\ StronglySorted le (map snd (read_all 0 sheets)).
Proof.
  intros E sheets. split; [|apply read_all_sorted]. generalize 0.
  assert (HI : forall i : item E, forall index, map fst (fst (read_item index i)) = reading_item i).
  { apply (item_all E (fun i => forall index, map fst (fst (read_item index i)) = reading_item i)); [auto|].
    intros b s Hs index. rewrite read_combine. cbn [fst reading_item]. revert index. induction Hs as [|i s Hi Hs IH]; intros; auto.
    rewrite read_cons. cbn [fst flat_map]. rewrite map_app, Hi, IH. auto. }
  assert (HS : forall (s : list (item E)) index, map fst (fst (read_sheet index s)) = flat_map reading_item s).
  { induction s as [|i s IH]; intros; auto. rewrite read_cons. cbn [fst flat_map]. rewrite map_app, HI, IH. auto. }
  induction sheets as [|s sheets IH]; intros index; auto. cbn [read_all flat_map].
  rewrite <- (HS s index), <- (IH (S (snd (read_sheet index s)))). destruct (read_sheet index s). apply map_app.
Qed.
Print Assumptions C55_complete.
(** [own; include b], where b imports a: [own] gets the precedence of [a]. *)
Theorem C55_include_refuted :
  let s := [Elem 1; Combine false [Combine true [Elem 2]; Elem 3]] in
  postorder s = [[2]; [1; 3]] /\ of_precedence 0 (read_all 0 [s]) = [1; 2] /\ of_precedence 1 (read_all 0 [s]) = [3].
Proof. vm_compute. auto. Qed.
Print Assumptions C55_include_refuted.

(** ** What xsl:apply-imports considers *)

(** From the main module it considers just the imported elements, and the same holds
    for a module reached by first imports. *)
Theorem C55_imports_partial : forall E (s t : list (item E)), imports_first s -> leftmost s t -> forall e,
  In e (considered (List.length (imported t)) (read_all 0 [s])) <-> In e (concat (imported t)).
Proof.
  intros E s t Hf Hl e.
  assert (Hp : exists b, postorder s = postorder t ++ b).
  { clear Hf e. induction Hl as [s|s t t' Hl (b & Hb)]; [exists []; rewrite app_nil_r; auto|].
    exists (b ++ imported s ++ [own s]). unfold postorder in *. change (imported (Combine true t :: s)) with ((imported t ++ [own t]) ++ imported s).
    change (own (Combine true t :: s)) with (own s). rewrite Hb, <- !app_assoc. auto. }
  destruct Hp as (b & Hp). rewrite considered_of, in_concat_nth.
  assert (Hn : forall j, j < List.length (imported t) -> of_precedence j (read_all 0 [s]) = nth j (imported t) []).
  { intros j Hj. rewrite C55_precedence_partial by (constructor; auto). cbn [flat_map]. rewrite app_nil_r, Hp.
    unfold postorder. rewrite <- app_assoc, app_nth1 by lia. auto. }
  split; intros (j & Hj & Hin); exists j; (split; [auto|]); rewrite Hn in *; auto.
Qed.
Print Assumptions C55_imports_partial.
(** For every other module of the import tree nothing that it imports is missed. *)
Theorem C55_imports_found : forall E (s t : list (item E)), imports_first s -> imports s t ->
  exists k, of_precedence k (read_all 0 [s]) = own t /\ incl (concat (imported t)) (considered k (read_all 0 [s])).
Proof.
  intros E s t Hf Hi.
  assert (Hsub : forall (s : list (item E)) i, In i s -> exists a b, imported s = a ++ imported_item i ++ b).
  { clear. intros s i H. apply in_split in H. destruct H as (l1 & l2 & ->). exists (imported l1), (imported l2). unfold imported. rewrite flat_map_app. auto. }
  assert (Hp : exists a b, imported s = a ++ postorder t ++ b).
  { clear Hf. induction Hi as [s t Hin|s t s' Hin Hi (a & b & Hab)|s t s' Hin Hi (a & b & Hab)].
    - destruct (Hsub _ _ Hin) as (a & b & H). exists a, b. exact H.
    - destruct (Hsub _ _ Hin) as (c & d & H). exists (c ++ a), (b ++ d). rewrite H.
      change (imported_item (Combine false s')) with (imported s'). rewrite Hab, <- !app_assoc. auto.
    - destruct (Hsub _ _ Hin) as (c & d & H). exists (c ++ a), (b ++ [own s'] ++ d). rewrite H.
      change (imported_item (Combine true s')) with (imported s' ++ [own s']). rewrite Hab, <- !app_assoc. auto. }
  destruct Hp as (a & b & Hp).
  assert (Hn : forall j, j <= List.length (imported t) -> of_precedence (List.length a + j) (read_all 0 [s]) = nth j (postorder t) []).
  { intros j Hj. rewrite C55_precedence_partial by (constructor; auto). cbn [flat_map]. rewrite app_nil_r. unfold postorder at 1.
    rewrite Hp, <- !app_assoc, app_nth2_plus, app_nth1 by (rewrite postorder_length; lia). auto. }
  exists (List.length a + List.length (imported t)). split.
  - rewrite Hn by lia. unfold postorder. rewrite app_nth2, Nat.sub_diag by lia. auto.
  - intros e He. apply in_concat_nth in He. destruct He as (j & Hj & He). apply considered_of. exists (List.length a + j). split; [lia|].
    rewrite Hn by lia. unfold postorder. rewrite app_nth1 by lia. auto.
Qed.
Print Assumptions C55_imports_found.
(** But more may be found: the main module imports a and b; from b, which imports
    nothing, the rules of a are considered. *)
Theorem C55_siblings_refuted :
  let s := [Combine true [Elem 1]; Combine true [Elem 2]; Elem 3] in
  of_precedence 1 (read_all 0 [s]) = [2] /\ imported [Elem 2] = [] /\ considered 1 (read_all 0 [s]) = [1].
Proof. vm_compute. auto. Qed.
Print Assumptions C55_siblings_refuted.

(** ** Which of several definitions counts *)
Lemma read_ordered : forall E (sheets : list (list (item E))), ordered snd (read_all 0 sheets).
Proof. intros. apply read_all_sorted. Qed.
Lemma ordered_filter : forall A (prec : A -> nat) f l, ordered prec l -> ordered prec (filter f l).
Proof.
  intros A prec f l H. unfold ordered in *. induction l as [|x l IH]; cbn [filter map] in *; auto. inversion H; subst.
  destruct (f x); auto. cbn [map]. constructor; auto. rewrite Forall_forall in *. intros y Hy.
  apply in_map_iff in Hy. destruct Hy as (z & <- & Hz). apply filter_In in Hz. apply H3, in_map, Hz.
Qed.
Lemma twice_map : forall A B (f : A -> B) (P : B -> Prop) prec l, twice P prec (map f l) <-> twice (fun x => P (f x)) (fun x => prec (f x)) l.
Proof.
  intros A B f P prec l. split.
  - intros (l1 & x & l2 & y & l3 & He & Hx & Hy & Hxy).
    apply map_eq_app in He. destruct He as (m1 & m2 & -> & <- & He). apply map_eq_cons in He. destruct He as (x' & m3 & -> & <- & He).
    apply map_eq_app in He. destruct He as (m4 & m5 & -> & <- & He). apply map_eq_cons in He. destruct He as (y' & m6 & -> & <- & <-).
    exists m1, x', m4, y', m6. auto.
  - intros (l1 & x & l2 & y & l3 & -> & Hx & Hy & Hxy). exists (map f l1), (f x), (map f l2), (f y), (map f l3).
    rewrite map_app. cbn [map]. rewrite map_app. auto.
Qed.

(** Global variables and parameters: two of the same name and precedence are an error;
    without that, the one of the highest precedence is used. *)
Theorem C55_variables : forall E (sheets : list (list (item E))) (isvar : E -> bool) (name : E -> str),
  let vars := filter (fun p => isvar (fst p)) (read_all 0 sheets) in
  match check_globals [] (map (fun p => (name (fst p), snd p)) vars) with
  | Ok _ => (forall n, ~ twice (fun p => name (fst p) = n) snd vars) /\
            NoDup (map (fun p => name (fst p)) (variables (fun p => name (fst p)) vars)) /\
            forall x, In x (variables (fun p => name (fst p)) vars) <-> winner (fun p => name (fst p) = name (fst x)) snd vars x
  | Err e => e = DuplicateTopLevelVar /\ exists n, twice (fun p => name (fst p) = n) snd vars
  end.
Proof.
  intros E sheets isvar name vars.
  assert (Ho : ordered snd vars) by (apply ordered_filter, read_ordered).
  pose proof (check_ok (map (fun p => (name (fst p), snd p)) vars) [] []) as H. cbn [app] in H.
  destruct (check_globals [] (map (fun p => (name (fst p), snd p)) vars)) as [g|e].
  - assert (Hn : forall n, ~ twice (fun p => name (fst p) = n) snd vars).
    { intros n Ht. apply (H) with n; [intro m; split; [discriminate|intros k []]|unfold ordered; rewrite map_map; exact Ho| |].
      - intros m (l1 & x & l2 & y & l3 & He & _). destruct l1; discriminate.
      - apply twice_map. exact Ht. }
    split; auto. split; [apply keep_variables_names|]. intros x. apply variables_winner; auto.
  - destruct H as (He & n & Ht); [intro m; split; [discriminate|intros k []]|unfold ordered; rewrite map_map; exact Ho| |].
    + intros m (l1 & x & l2 & y & l3 & He & _). destruct l1; discriminate.
    + split; auto. exists n. apply twice_map in Ht. exact Ht.
Qed.
Print Assumptions C55_variables.

(** Named templates: if there is no error, a name stands for the template of the highest
    precedence, of which there is one.  An error is raised only if two have the same name
    and precedence. *)
Theorem C55_named_partial : forall E (sheets : list (list (item E))) (name : E -> option str),
  let name' := fun p : E * nat => name (fst p) in
  match named_templates name' snd (read_all 0 sheets) with
  | Ok kept => forall n, (forall t, lookup_named name' kept n = Some t <-> winner (fun p => name' p = Some n) snd (read_all 0 sheets) t) /\
                         (lookup_named name' kept n = None <-> forall t, In t (read_all 0 sheets) -> name' t <> Some n)
  | Err e => e = DuplicateNamedTemplate /\ exists n, twice (fun p => name' p = Some n) snd (read_all 0 sheets)
  end.
Proof. intros. apply named_ok. apply read_ordered. Qed.
Print Assumptions C55_named_partial.
(** Two templates of the same name in an imported module are no error if the main module
    has one of that name, too. *)
Theorem C55_duplicate_refuted :
  let s := [Combine true [Elem 1; Elem 2]; Elem 3] in
  let name := fun p : nat * nat => Some (lit "t") in
  twice (fun p => name p = Some (lit "t")) snd (read_all 0 [s]) /\ named_templates name snd (read_all 0 [s]) = Ok [(3, 1)].
Proof.
  split; [|vm_compute; reflexivity]. exists [], (1, 0), [], (2, 0), [(3, 1)]. vm_compute. auto.
Qed.
Print Assumptions C55_duplicate_refuted.

(** xsl:output: an attribute has the value given with the highest precedence, and the
    last of those. *)
Theorem C55_output : forall E V (sheets : list (list (item E))) (value : E -> option V) v,
  output_parameter (fun p => value (fst p)) None (read_all 0 sheets) = Some v <->
  exists e, last_winner (fun p => value (fst p) <> None) snd (read_all 0 sheets) e /\ value (fst e) = Some v.
Proof. intros. apply (output_ok _ _ (fun p => value (fst p)) snd). apply read_ordered. Qed.
Print Assumptions C55_output.

(** ** Cases *)
Definition modules : str -> option (list (written nat)) := fun u =>
  if str_eqb u (lit "main") then Some [Refer true (lit "a"); Refer true (lit "b"); Here 1; Refer false (lit "c"); Here 2]
  else if str_eqb u (lit "a") then Some [Refer true (lit "b"); Here 3]
  else if str_eqb u (lit "b") then Some [Here 4]
  else if str_eqb u (lit "c") then Some [Here 5]
  else if str_eqb u (lit "d") then Some [Refer false (lit "a"); Refer true (lit "e")]
  else if str_eqb u (lit "e") then Some [Refer true (lit "d")]
  else None.
Example C55_load_case :
  load modules 7 [] (lit "main") = Ok [Combine true [Combine true [Elem 4]; Elem 3]; Combine true [Elem 4]; Elem 1; Combine false [Elem 5]; Elem 2] /\
  load modules 7 [] (lit "d") = Err CircularInclude.
Proof. vm_compute. auto. Qed.
Definition main := [Combine true [Combine true [Elem 4]; Elem 3]; Combine true [Elem 4]; Elem 1; Combine false [Elem 5]; Elem 2].
Example C55_first_case : imports_first main.
Proof.
  assert (H1 : forall e : nat, imports_first [Elem e]).
  { intros e. constructor; [|intros b t [H|[]]; discriminate]. intros [|x [|y l1]] i l2 H; [intros Ho; elim Ho; auto|discriminate|discriminate]. }
  constructor.
  - intros l1 i l2 H Ho.
    do 3 (destruct l1 as [|x l1]; [exfalso; apply Ho; reflexivity|cbn [app] in H; injection H as <- H; try (exfalso; apply Ho; reflexivity)]).
    + destruct l1 as [|x l1]; [injection H as <- _; reflexivity|injection H as <- H].
      destruct l1 as [|x l1]; [injection H as <- _; reflexivity|injection H as <- H]. destruct l1; discriminate.
  - intros b t [H|[H|[H|[H|[H|[]]]]]]; try discriminate; injection H as <- <-; auto.
    constructor.
    + intros [|x [|y [|z l1]]] i l2 H Ho; [elim Ho; auto|injection H as <- _; elim Ho; auto|discriminate|discriminate].
    + intros b t [H|[H|[]]]; try discriminate; injection H as <- <-; auto.
Qed.
Example C55_case :
  map (fun k => of_precedence k (read_all 0 [main; [Elem 6]])) (seq 0 6) = [[4]; [3]; [4]; [1; 5; 2]; [6]; []] /\
  considered 1 (read_all 0 [main]) = [4] /\
  named_templates (fun p => if fst p <? 4 then None else Some (lit "t")) snd (read_all 0 [[Combine true [Elem 4]; Combine true [Elem 5]; Elem 6]]) = Ok [(6, 2)] /\
  variables (fun p => if fst p <? 5 then lit "x" else lit "y") (read_all 0 [[Combine true [Elem 4; Elem 5]; Elem 6]]) = [(4, 0); (6, 1)] /\
  output_parameter (fun p => if fst p <? 6 then Some (fst p) else None) None (read_all 0 [[Combine true [Elem 4; Elem 5]; Elem 6]]) = Some 5.
Proof. vm_compute. auto 10. Qed.
