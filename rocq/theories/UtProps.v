(** * C81 to C84: utilities *)
From Coq Require Import NArith ZArith String List Bool Lia Arith.
From Verif Require Import PyStr PyErr DomModel DomSpec DomCells DomInv DomOps DomStep DomProps XpModel XpSpec XpTree XuModel UtModel UtSpec UtProofs UtText.
Import ListNotations.
Local Open Scope nat_scope.

(** ** C81: element_subtree_iter

    Of an entity or an element it yields the elements below it, with the node
    itself if that is an element or asked for: each once, a parent before its
    children, and the element children of a node next to each other in their
    order.  The order is not document order.  Other nodes have no xml_children. *)
Theorem C81_subtree_partial : forall s node root_too k, forest s -> kind_of s node = Some k ->
  match k with
  | KEntity | KElement =>
    exists L, element_subtree_iter s node root_too = Ok L /\ NoDup L /\
      (forall x, In x L <-> (x = node /\ (k = KElement \/ root_too = true)) \/ (element s x /\ above (parent_of s) node x)) /\
      (forall e, In e L -> exists l1 l2 l3, L = l1 ++ e :: l2 ++ elements s (kids s e) ++ l3) /\
      (exists l1 l3, L = l1 ++ elements s (kids s node) ++ l3)
  | _ => element_subtree_iter s node root_too = Err AttributeError
  end.
Proof.
  intros s node rt k F K. destruct k; try (eapply iter_leaf; [exact K|reflexivity]); (apply iter_ok; [exact F|exact K|reflexivity]).
Qed.
Print Assumptions C81_subtree_partial.

(** <a><b><c/></b>t<d/></a> in a document. *)
Definition nested : list op := [New KEntity []; New KElement []; New KElement []; New KElement []; New KText (lit "t"); New KElement [];
  Append 0 1; Append 1 2; Append 2 3; Append 1 4; Append 1 5].
Lemma nested_safe : safe_run empty nested.
Proof. apply safe_runb_ok. vm_compute. reflexivity. Qed.
Lemma nested_forest : forest (run empty nested).
Proof. apply C18_links_consistent_partial, nested_safe. Qed.
Example C81_case : forest (run empty nested) /\
  element_subtree_iter (run empty nested) 0 false = Ok [1; 2; 5; 3] /\ element_subtree_iter (run empty nested) 0 true = Ok [0; 1; 2; 5; 3] /\
  element_subtree_iter (run empty nested) 2 false = Ok [2; 3] /\ element_subtree_iter (run empty nested) 4 false = Err AttributeError.
Proof. split; [exact nested_forest|]. repeat split; vm_compute; reflexivity. Qed.

(** "in document order": of <a><b><c/></b>t<d/></a> it yields d before c, although
    c comes before d. *)
Theorem C81_document_order_refuted : forest (run empty nested) /\
  exists l1 l2 l3, element_subtree_iter (run empty nested) 0 false = Ok (l1 ++ 5 :: l2 ++ 3 :: l3) /\ before (run empty nested) 3 5.
Proof.
  split; [exact nested_forest|]. exists [1; 2], [], []. split; [vm_compute; reflexivity|].
  assert (K : kids (run empty nested) 1 = [2; 4] ++ [5]) by (vm_compute; reflexivity).
  eapply (kids_before _ 1 [2; 4] [5] 2 5 3 5 nested_forest K); [now left|now left| |now left].
  right. apply above_parent. vm_compute. reflexivity.
Qed.
Print Assumptions C81_document_order_refuted.

(** ** C82: unwrap

    The children of the element take its place among the children of its
    parent, in their order; the element is left without parent and children;
    nothing else changes; the parent is returned. *)
Theorem C82_unwrap : forall s e p a b, forest s -> kind_of s e = Some KElement -> kids s p = a ++ e :: b ->
  exists s', unwrap s e = (s', Ok p) /\ forest s' /\
    edited s s' (fun q => if q =? p then a ++ kids s e ++ b else if q =? e then [] else kids s q)
                (fun i => if i =? e then None else if existsb (Nat.eqb i) (kids s e) then Some p else parent_of s i).
Proof. intros s e p a b F K E. exact (unwrap_ok s p e a b F K E). Qed.
Print Assumptions C82_unwrap.

(** Without a parent there is nothing to graft onto; nothing changes. *)
Theorem C82_no_parent : forall s e k, forest s -> kind_of s e = Some k -> is_container k = true -> parent_of s e = None ->
  unwrap s e = (s, Err AttributeError).
Proof. intros s e k F K C P. eapply unwrap_top; eauto. eapply kind_exists; eauto. Qed.
Print Assumptions C82_no_parent.

Example C82_case : kids (run empty nested) 1 = [] ++ 2 :: [4; 5] /\ snd (unwrap (run empty nested) 2) = Ok 1 /\
  kids (fst (unwrap (run empty nested) 2)) 1 = [3; 4; 5] /\ kids (fst (unwrap (run empty nested) 2)) 2 = [] /\
  parent_of (fst (unwrap (run empty nested) 2)) 3 = Some 1.
Proof. repeat split; vm_compute; reflexivity. Qed.

(** ** C83: readbysep

    For every separator that is not empty and every way the text may be cut
    into reads, the results are the pieces of the whole text between the
    separators. *)
Theorem C83_pieces : forall sep reads, sep <> [] -> Forall (fun c => c <> []) reads ->
  exists l, readbysep sep reads = Ok l /\ pieces sep (concat reads) l.
Proof. intros sep reads H R. apply (loop_pieces sep H reads [] R). intro j. now apply no_start_nil. Qed.
Print Assumptions C83_pieces.

(** So how the text is read does not matter, nothing is lost, and no piece has a
    separator in it. *)
Theorem C83_reads_irrelevant : forall sep r1 r2, sep <> [] -> Forall (fun c => c <> []) r1 -> Forall (fun c => c <> []) r2 ->
  concat r1 = concat r2 -> readbysep sep r1 = readbysep sep r2.
Proof.
  intros sep r1 r2 H R1 R2 E. destruct (C83_pieces sep r1 H R1) as (l1 & -> & P1). destruct (C83_pieces sep r2 H R2) as (l2 & -> & P2).
  rewrite E in P1. now rewrite (pieces_fun sep _ _ P1 _ P2).
Qed.
Print Assumptions C83_reads_irrelevant.
Theorem C83_joined : forall sep reads l, sep <> [] -> Forall (fun c => c <> []) reads -> readbysep sep reads = Ok l ->
  join sep l = concat reads /\ Forall (fun w => forall u v, w <> u ++ sep ++ v) l.
Proof.
  intros sep reads l H R E. destruct (C83_pieces sep reads H R) as (l' & E' & P). rewrite E in E'. injection E' as <-.
  destruct (pieces_join sep H _ _ P) as [J W]. split; [exact J|]. eapply Forall_impl; [|exact W]. intros w HW u v ->.
  apply (HW (length u)). rewrite skipn_app, skipn_all, Nat.sub_diag. now exists v.
Qed.
Print Assumptions C83_joined.

(** A separator across two reads, and one that could be taken in two ways. *)
Example C83_case : readbysep (lit "--") [lit "a-"; lit "-b"; lit "---c-"] = Ok [lit "a"; lit "b"; lit "-c-"].
Proof. vm_compute. reflexivity. Qed.

(** The documentation promises ['a', 'b', 'c'] for 'a\fb\fc\f' and for '\fa\fb\fc'. *)
Theorem C83_outer_separators_refuted :
  readbysep [12%N] [lit "a" ++ [12%N] ++ lit "b" ++ [12%N] ++ lit "c" ++ [12%N]] = Ok [lit "a"; lit "b"; lit "c"; []] /\
  readbysep [12%N] [[12%N] ++ lit "a" ++ [12%N] ++ lit "b" ++ [12%N] ++ lit "c"] = Ok [[]; lit "a"; lit "b"; lit "c"].
Proof. split; vm_compute; reflexivity. Qed.
Print Assumptions C83_outer_separators_refuted.

(** ** C84: Template *)
Local Open Scope N_scope.

(** Every text is made of proper parts, up to the end or up to a "$" that
    begins nothing. *)
Theorem C84_texts : forall t, exists l, template l /\ (t = written l \/ exists r, t = written l ++ 36 :: r /\ stray r).
Proof. intro t. apply (parse_template (List.length t) t (le_n _)). Qed.
Print Assumptions C84_texts.

(** substitute puts the values in place; a name without a value is a KeyError,
    a "$" that begins nothing a ValueError. *)
Theorem C84_substitute : forall value l, template l ->
  UtModel.substitute value (written l) = match meaning value l with Some v => Ok v | None => Err KeyError end.
Proof. exact substitute_ok. Qed.
Print Assumptions C84_substitute.
Theorem C84_stray : forall value l r, template l -> stray r ->
  UtModel.substitute value (written l ++ 36 :: r) = match meaning value l with Some _ => Err ValueError | None => Err KeyError end.
Proof. exact substitute_stray. Qed.
Print Assumptions C84_stray.

(** safe_substitute never fails; it leaves names without a value and stray
    delimiters as they are written. *)
Theorem C84_safe : forall value t, exists v, safe_substitute value t = Ok v.
Proof. intros value t. apply (safe_total value (List.length t) t (le_n _)). Qed.
Print Assumptions C84_safe.
Theorem C84_safe_parts : forall value l r, template l -> stray r ->
  safe_substitute value (written l) = Ok (flat_map (fun p => match meaning1 value p with Some v => v | None => written1 p end) l) /\
  (forall v, safe_substitute value r = Ok v ->
     safe_substitute value (written l ++ 36 :: r) = Ok (flat_map (fun p => match meaning1 value p with Some v => v | None => written1 p end) l ++ 36 :: v)).
Proof.
  intros value l r Hl Hr. split.
  - rewrite <- (app_nil_r (written l)), <- (app_nil_r (flat_map _ l)). apply (safe_template value l [] [] Hl); [discriminate|reflexivity].
  - intros v Hv. apply (safe_template value l (36 :: r) (36 :: v) Hl); [apply dollar_tail|].
    change (safe_substitute value (36 :: r) = Ok (36 :: v)). rewrite safe_stray by exact Hr. now rewrite Hv.
Qed.
Print Assumptions C84_safe_parts.

(** Where every name has a value the two agree. *)
Theorem C84_agree : forall value t v, UtModel.substitute value t = Ok v -> safe_substitute value t = Ok v.
Proof.
  intros value t v H. destruct (C84_texts t) as (l & Hl & [-> |(r & -> & Hr)]).
  - rewrite (C84_substitute value l Hl) in H. destruct (C84_safe_parts value l [] Hl I) as [-> _].
    destruct (meaning value l) as [w|] eqn:E; [|discriminate]. injection H as <-. f_equal. clear Hl. revert w E.
    induction l as [|p l IH]; intros w E; cbn [meaning flat_map] in *; [congruence|]. destruct (meaning1 value p); [|discriminate].
    destruct (meaning value l) as [w'|]; [|discriminate]. injection E as <-. now rewrite (IH w').
  - rewrite (C84_stray value l r Hl Hr) in H. destruct (meaning value l); discriminate.
Qed.
Print Assumptions C84_agree.

(** With every "$" doubled a text comes back, whatever the mapping. *)
Theorem C84_escaped : forall value t, UtModel.substitute value (flat_map (fun c => if c =? 36 then [36; 36] else [c]) t) = Ok t.
Proof. intros value t. destruct (doubled_parts t) as (l & H1 & H2 & H3). fold (doubled t). rewrite <- H2, (C84_substitute value l H1), H3. reflexivity. Qed.
Print Assumptions C84_escaped.

(** A keyword hides the entry of the mapping. *)
Theorem C84_keywords : forall kws m l, template l ->
  UtModel.substitute (multimap kws m) (written l) =
  match meaning (fun n => match kws n with Some v => Some v | None => m n end) l with Some v => Ok v | None => Err KeyError end.
Proof. intros kws m l Hl. exact (C84_substitute (multimap kws m) l Hl). Qed.
Print Assumptions C84_keywords.

Definition who (n : str) : option str := if str_eqb n (lit "who") then Some (lit "$x") else None.
Example C84_case : template [Text (lit "a "); Name (lit "who"); Text (lit "-"); Dollar; Braced (lit "who"); Text (lit "s")] /\
  written [Text (lit "a "); Name (lit "who"); Text (lit "-"); Dollar; Braced (lit "who"); Text (lit "s")] = lit "a $who-$$${who}s" /\
  UtModel.substitute who (lit "a $who-$$${who}s") = Ok (lit "a $x-$$xs") /\
  UtModel.substitute who (lit "$who ${b}") = Err KeyError /\ UtModel.substitute who (lit "$who $ b") = Err ValueError /\ stray (lit " b") /\
  safe_substitute who (lit "$who ${b} $ $c") = Ok (lit "$x ${b} $ $c").
Proof.
  assert (H : identifier (lit "who")) by (cbn; unfold letter; split; [lia|repeat constructor; lia]).
  assert (NI : forall c t, forallb (fun x => negb (x =? c)) t = true -> ~ In c t).
  { intros c t E I. rewrite forallb_forall in E. specialize (E c I). rewrite N.eqb_refl in E. discriminate. }
  split; [|split; [vm_compute; reflexivity|split; [vm_compute; reflexivity|split; [vm_compute; reflexivity|split; [vm_compute; reflexivity|split; [|vm_compute; reflexivity]]]]]].
  - apply tp_text; [now apply NI|]. apply tp_name; [exact H| |].
    + intros c r E. vm_compute in E. injection E as <- _. unfold letter, digit. lia.
    + apply tp_text; [now apply NI|]. apply tp_dollar, tp_braced; [exact H|]. apply tp_text; [now apply NI|constructor].
  - cbn. unfold letter. split; [lia|]. split; [lia|]. intros [E _]. lia.
Qed.
