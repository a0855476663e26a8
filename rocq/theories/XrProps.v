(** * C120: reading XUpdate documents *)
From Coq Require Import NArith ZArith String List Bool Lia Arith Permutation.
From Verif Require Import PyStr PyErr DtdModel DtdSpec DtdProps SrMatch XsModel XsSpec XrModel XrSpec.
Import ListNotations.
Open Scope N_scope.

Definition tokens (r : rule) : list str :=
  match r with
  | Commands => map lit (children Commands) ++ [LITERAL]
  | Template => TEXT :: map lit (children Template) ++ [LITERAL]
  | Chars => TEXT :: map lit (children Chars)
  | OnlyText => [TEXT]
  | Nothing => [EMPTY]
  end.
Definition model (r : rule) : content :=
  match r with Commands => m_toplevel | Template => m_template | Chars => m_char_template | OnlyText => m_text | Nothing => m_empty end.
Definition among (l : list str) (e : event) : Prop := exists n, In n l /\ e = EName n.
Lemma alt_forall : forall cs P, (forall c v, In c cs -> matches c v -> Forall P v) -> (forall e, P e -> exists c, In c cs /\ matches c [e]) ->
  forall v, matches (CAlt Rep cs) v <-> Forall P v.
Proof.
  intros cs P H1 H2. apply rep_forall; [reflexivity| |].
  - intros v H. apply once_alt_iff in H as (c & Hc & M). eauto.
  - intros e He. apply once_alt_iff. destruct (H2 e He) as (c & Hc & M). eauto.
Qed.
Lemma one_name : forall n v, matches (CName One n) v <-> v = [EName n].
Proof. intros n v. rewrite matches_one by reflexivity. apply once_name_iff. Qed.
Lemma names_in : forall l c, In c (names l) -> exists n, In n l /\ c = CName One (lit n).
Proof. intros l c H. apply in_map_iff in H as (n & <- & H). eauto. Qed.
Lemma in_names : forall l n, In n l -> In (CName One (lit n)) (names l).
Proof. intros l n H. apply in_map_iff. eauto. Qed.
Lemma char_iff : forall v, matches m_char_template v <-> Forall (among (tokens Chars)) v.
Proof.
  apply alt_forall.
  - intros c v [<-|H] M.
    + apply rep_name in M. eapply Forall_impl; [|exact M]. intros e ->. exists TEXT. split; [now left|reflexivity].
    + apply names_in in H as (n & Hn & ->). apply one_name in M as ->. constructor; [|constructor]. exists (lit n). split; [right; now apply in_map|reflexivity].
  - intros e (n & [<-|Hn] & ->).
    + exists m_text. split; [now left|]. apply rep_name. constructor; [reflexivity|constructor].
    + apply in_map_iff in Hn as (x & <- & Hx). exists (CName One (lit x)). split; [right; now apply in_names|]. now apply one_name.
Qed.
Lemma model_iff : forall r v, matches (model r) v <-> Forall (among (tokens r)) v.
Proof.
  intros [] v.
  - apply alt_forall; clear v.
    + intros c v H M. apply in_app_or in H as [H|[<-|[]]].
      * apply names_in in H as (n & Hn & ->). apply one_name in M as ->. constructor; [|constructor]. exists (lit n). split; [apply in_or_app; left; now apply in_map|reflexivity].
      * apply rep_name in M. eapply Forall_impl; [|exact M]. intros e ->. exists LITERAL. split; [apply in_or_app; right; now left|reflexivity].
    + intros e (n & Hn & ->). apply in_app_or in Hn as [Hn|[<-|[]]].
      * apply in_map_iff in Hn as (x & <- & Hx). exists (CName One (lit x)). split; [apply in_or_app; left; now apply in_names|]. now apply one_name.
      * exists m_literal. split; [apply in_or_app; right; now left|]. apply rep_name. constructor; [reflexivity|constructor].
  - apply alt_forall; clear v.
    + intros c v [<-|H] M; [|apply in_app_or in H as [H|[<-|[]]]].
      * apply char_iff in M. eapply Forall_impl; [|exact M]. intros e (n & Hn & ->). exists n. split; [|reflexivity]. cbn in Hn |- *. tauto.
      * apply names_in in H as (n & Hn & ->). apply one_name in M as ->. constructor; [|constructor]. exists (lit n). split; [|reflexivity].
        right. apply in_or_app. left. apply in_map. cbn in Hn |- *. tauto.
      * apply rep_name in M. eapply Forall_impl; [|exact M]. intros e ->. exists LITERAL. split; [right; apply in_or_app; right; now left|reflexivity].
    + intros e (n & [<-|Hn] & ->).
      * exists m_char_template. split; [now left|]. apply char_iff. constructor; [|constructor]. exists TEXT. split; [now left|reflexivity].
      * apply in_app_or in Hn as [Hn|[<-|[]]].
        -- apply in_map_iff in Hn as (x & <- & [<-|[<-|Hx]]).
           ++ exists m_char_template. split; [now left|]. apply char_iff. constructor; [|constructor]. eexists. split; [right; now left|reflexivity].
           ++ exists m_char_template. split; [now left|]. apply char_iff. constructor; [|constructor]. eexists. split; [right; right; now left|reflexivity].
           ++ exists (CName One (lit x)). split; [right; apply in_or_app; left; now apply in_names|]. now apply one_name.
        -- exists m_literal. split; [right; apply in_or_app; right; now left|]. apply rep_name. constructor; [reflexivity|constructor].
  - apply char_iff.
  - cbn [model]. unfold m_text. rewrite rep_name. split; intro H; (eapply Forall_impl; [|exact H]).
    + intros e ->. exists TEXT. split; [now left|reflexivity].
    + intros e (n & [<-|[]] & ->). reflexivity.
  - cbn [model]. unfold m_empty. rewrite rep_name. split; intro H; (eapply Forall_impl; [|exact H]).
    + intros e ->. exists EMPTY. split; [now left|reflexivity].
    + intros e (n & [<-|[]] & ->). reflexivity.
Qed.
Lemma among_map : forall l w, Forall (among l) (map EName w) <-> Forall (fun n => In n l) w.
Proof.
  intros l w. rewrite Forall_map. split; intro H; (eapply Forall_impl; [|exact H]); cbn beta.
  - intros n (m & Hm & E). now injection E as ->.
  - intros n Hn. exists n. auto.
Qed.
Lemma compiled : forall order, any_order order -> forall r, exists d, compile order (model r) = Ok d /\
  (forall w, accepts d (map EName w) = true <-> Forall (fun n => In n (tokens r)) w) /\
  (forall w, walk d 0 (map EName w) <> None <-> Forall (fun n => In n (tokens r)) w).
Proof.
  intros order O r. destruct (C36_language_partial order (model r) O) as (d & C & A & W); [destruct r; cbn; tauto|].
  exists d. split; [exact C|]. split.
  - intro w. rewrite A, model_iff. apply among_map.
  - intro w. rewrite W by (destruct r; cbn; repeat split; try discriminate). split.
    + intros (more & M). apply model_iff in M. apply Forall_app in M as [M _]. now apply among_map.
    + intro H. exists []. rewrite app_nil_r. apply model_iff. now apply among_map.
Qed.
Lemma walk_app : forall d u v k, walk d k (u ++ v) = match walk d k u with Some k' => walk d k' v | None => None end.
Proof. induction u as [|e u IH]; intros v k; [reflexivity|]. cbn [app walk]. destruct (lookup (nth k d []) e); [apply IH|reflexivity]. Qed.
Section Doc.
Variable order : forall A, list A -> list A.
Hypothesis O : any_order order.
Variables w_xpath w_avt : str -> bool.
Notation factory := (factory w_xpath w_avt).
Notation fields := (fields w_xpath w_avt).
Notation read := (read order w_xpath w_avt).
Notation stands := (stands w_xpath w_avt).
Notation stands_all := (stands_all w_xpath w_avt).
Notation defect := (defect w_xpath w_avt).
Lemma no_empty_prefix : forall v l, is_qname v = true -> split_qname v <> (Some [], l).
Proof.
  intros [|c v] l H; [discriminate H|]. unfold split_qname. cbn [break1]. destruct (c =? 58) eqn:E.
  - apply N.eqb_eq in E. subst c. vm_compute in H. discriminate H.
  - destruct (break1 58 v) as [[p q]|]; discriminate.
Qed.
Definition result_of (x : option (list (str * field))) (r : row) : result (str * list (str * field) * content) -> Prop :=
  fun y => match x with Some fs => y = Ok (lit (r_class r), fs, model (r_rule r)) | None => exists er, y = Err er end.
Ltac go := cbn [bind slots slot value option_map map app result_of]; try (eexists; reflexivity); try reflexivity;
  match goal with
  | |- context [attr ?l ?n] => let E := fresh "A" in destruct (attr l n) eqn:E; go
  | |- context [w_xpath ?v] => let E := fresh "X" in destruct (w_xpath v) eqn:E; go
  | |- context [w_avt ?v] => let E := fresh "X" in destruct (w_avt v) eqn:E; go
  | |- context [str_eqb ?v (lit "1.0")] => let E := fresh "X" in destruct (str_eqb v (lit "1.0")) eqn:E; go
  | |- context [is_qname ?v] => let E := fresh "Q" in destruct (is_qname v) eqn:E; go
  | Q : is_qname ?v = true |- context [split_qname ?v] =>
    let E := fresh "SP" in destruct (split_qname v) as [[[|? ?]|] ?] eqn:E; [exfalso; exact (no_empty_prefix _ _ Q E)| |]; go
  | |- context [ns_get ?s ?p] => let E := fresh "G" in destruct (ns_get s p) eqn:E; go
  | _ => idtac
  end.
Lemma factory_spec : forall e s, attr (e_attrs e) (lit "namespace") = None ->
  match find_row table (e_local e) with
  | Some r => result_of (fields s (e_attrs e) r) r (factory e s)
  | None => factory e s = Err ILLEGAL_ELEMENT
  end.
Proof.
  intros e s HN. unfold XrModel.factory, table. cbn [find_row].
  repeat match goal with |- context [str_eqb (e_local e) ?x] => destruct (str_eqb (e_local e) x); [|] end; try reflexivity;
  unfold XrSpec.fields, mkrow; cbn [r_attrs r_ns r_class r_rule select slots slot app]; unfold select_command, named_instruction, required, expression, avt.
  all: try rewrite HN.
  all: go.
Qed.
Ltac member := cbn [r_attrs mkrow select app]; first [left; reflexivity | right; left; reflexivity].
Ltac leaf F XU :=
  match goal with
  | H : Ok _ = Err _ |- _ => discriminate H
  | H : Err _ = Err _ |- _ => injection H as <-
  end;
  first [ apply d_unknown; [exact XU|exact F]
        | match goal with A : attr _ _ = None |- _ => eapply d_missing; [exact XU|exact F| |exact A]; member end
        | match goal with A : attr _ (lit "namespace") = Some _ |- _ => eapply d_namespace; [exact XU|exact F| |exact A]; member end
        | match goal with A : attr _ _ = Some ?v, X : w_xpath ?v = false |- _ => eapply d_value; [exact XU|exact F| |exact A| |]; [member|cbn [value]; rewrite X; reflexivity|constructor] end
        | match goal with A : attr _ _ = Some ?v, X : w_avt ?v = false |- _ => eapply d_value; [exact XU|exact F| |exact A| |]; [member|cbn [value]; rewrite X; reflexivity|constructor] end
        | match goal with A : attr _ _ = Some ?v, X : str_eqb ?v (lit "1.0") = false |- _ => eapply d_value; [exact XU|exact F| |exact A| |]; [member|cbn [value]; rewrite X; reflexivity|constructor] end
        | match goal with A : attr _ _ = Some ?v, X : is_qname ?v = false |- _ => eapply d_value; [exact XU|exact F| |exact A| |]; [member|cbn [value]; rewrite X; reflexivity|constructor; exact X] end
        | match goal with A : attr _ _ = Some ?v, X : is_qname ?v = true, E : split_qname ?v = _, G : ns_get _ _ = None |- _ =>
            eapply d_value; [exact XU|exact F| |exact A| |]; [member|cbn [value]; rewrite X, E, G; reflexivity|apply e_prefix; exact X] end ].
Ltac split_h H := cbn [bind] in H;
  lazymatch type of H with
  | context [attr ?l ?n] => let E := fresh "A" in destruct (attr l n) eqn:E; split_h H
  | context [w_xpath ?v] => let E := fresh "X" in destruct (w_xpath v) eqn:E; split_h H
  | context [w_avt ?v] => let E := fresh "X" in destruct (w_avt v) eqn:E; split_h H
  | context [str_eqb ?v (lit "1.0")] => let E := fresh "X" in destruct (str_eqb v (lit "1.0")) eqn:E; split_h H
  | context [is_qname ?v] => let E := fresh "Q" in destruct (is_qname v) eqn:E; split_h H
  | context [split_qname ?v] => let E := fresh "SP" in destruct (split_qname v) as [[[|? ?]|] ?] eqn:E; split_h H
  | context [ns_get ?s ?p] => let E := fresh "G" in destruct (ns_get s p) eqn:E; split_h H
  | _ => idtac
  end.
Lemma factory_err : forall (ok : xnode -> Prop) s e kids er, xupdate e -> factory e (e_decls e ++ s) = Err er -> defect ok s (XElem e kids) er.
Proof.
  intros ok s e kids er XU. pose proof (eq_refl (find_row table (e_local e))) as F. unfold table in F at 2. revert F. unfold XrModel.factory. cbn [find_row].
  repeat match goal with |- context [str_eqb (e_local e) ?x] => destruct (str_eqb (e_local e) x); [|] end; intros F H;
  unfold select_command, named_instruction, required, expression, avt in H; split_h H; leaf F XU.
Qed.
Lemma xnode_ind2 : forall P : xnode -> Prop, (forall t, P (XText t)) -> (forall e kids, Forall P kids -> P (XElem e kids)) -> forall n, P n.
Proof.
  intros P H1 H2. fix IH 1. intros [t|e kids]; [apply H1|]. apply H2. induction kids as [|n l IHl]; [constructor|]. constructor; [apply IH|exact IHl].
Qed.
Definition is_xu (e : elem) : bool := ostr_eqb (e_ns e) (Some XUPDATE_NAMESPACE).
Lemma is_xu_iff : forall e, is_xu e = true <-> xupdate e.
Proof.
  intro e. unfold is_xu, xupdate, ostr_eqb. destruct (e_ns e) as [u|]; [|split; discriminate]. rewrite str_eqb_eq. split; congruence.
Qed.
Definition events (n : xnode) : list str :=
  match n with XText t => if forallb py_space t then [] else [TEXT] | XElem e _ => [if is_xu e then e_local e else LITERAL] end.
Fixpoint read_all (d : dfa) (s : scope) (k : nat) (l : list xnode) : result (nat * list item) :=
  match l with
  | [] => Ok (k, [])
  | n :: l' => do a <- read d k s n ; do b <- read_all d s (fst a) l' ; Ok (fst b, snd a ++ snd b)
  end.
Lemma read_elem : forall d k s e kids, read d k s (XElem e kids) =
  (do p <- start_element w_xpath w_avt e (e_decls e ++ s) ;
   match lookup (nth k d []) (EName (snd p)) with
   | None => Err ILLEGAL_ELEMENT_CHILD
   | Some k' =>
     do d' <- compile order (snd (fst p)) ;
     do r <- read_all d' (e_decls e ++ s) 0 kids ;
     match lookup (nth (fst r) d' []) EFinal with
     | None => Err AttributeError
     | Some _ => Ok (k', [Item (fst (fst (fst p))) (snd (fst (fst p))) (snd r)])
     end
   end).
Proof.
  intros d k s e kids. cbn [XrModel.read]. destruct (start_element w_xpath w_avt e (e_decls e ++ s)) as [p|]; [|reflexivity]. cbn [bind].
  destruct (lookup _ _); [|reflexivity]. destruct (compile order (snd (fst p))) as [d'|]; [|reflexivity]. cbn [bind].
  match goal with |- bind (?f 0%nat kids) ?g = _ => assert (G : forall l k, f k l = read_all d' (e_decls e ++ s) k l) end.
  { induction l as [|x l IH]; intro k0; [reflexivity|]. cbn [read_all]. destruct (read d' k0 (e_decls e ++ s) x); cbn [bind]; [rewrite IH|]; reflexivity. }
  now rewrite G.
Qed.
Lemma start_event : forall e s p, start_element w_xpath w_avt e s = Ok p -> snd p = (if is_xu e then e_local e else LITERAL).
Proof.
  intros e s p. unfold start_element, is_xu. destruct (ostr_eqb _ _); [|intro H; injection H as <-; reflexivity].
  destruct (factory e s); cbn [bind]; intro H; [injection H as <-; reflexivity|discriminate H].
Qed.
Lemma read_walk : forall n d k s k' items, read d k s n = Ok (k', items) -> walk d k (map EName (events n)) = Some k'.
Proof.
  intros [t|e kids] d k s k' items H.
  - cbn [XrModel.read] in H. cbn [events]. destruct (forallb py_space t); [now injection H as <- <-|].
    cbn [map walk]. destruct (lookup _ _); [now injection H as <- <-|discriminate H].
  - rewrite read_elem in H. destruct (start_element _ _ _ _) as [p|] eqn:S; cbn [bind] in H; [|discriminate H].
    rewrite (start_event _ _ _ S) in H. cbn [events map walk]. destruct (lookup _ _) as [k1|]; [|discriminate H].
    destruct (compile _ _) as [d'|]; cbn [bind] in H; [|discriminate H]. destruct (read_all _ _ _ _) as [r|]; cbn [bind] in H; [|discriminate H].
    destruct (lookup _ EFinal); [now injection H as <- <-|discriminate H].
Qed.
Lemma white_py : forall t, blank t -> forallb py_space t = true.
Proof. intros t H. apply forallb_forall. intros c Hc. unfold blank in H. rewrite Forall_forall in H. destruct (H c Hc) as [->|[->|[->| ->]]]; reflexivity. Qed.
Lemma allowed_tokens : forall r n, allowed r n -> Forall (fun t => In t (tokens r)) (events n).
Proof.
  intros r [t|e kids] H; cbn [events].
  - destruct H as [H|H]; [rewrite white_py by exact H; constructor|]. destruct (forallb py_space t); constructor; [|constructor].
    destruct H as [->|[->| ->]]; now left.
  - constructor; [|constructor]. destruct H as [(X & c & Hc & E)|(X & H)].
    + apply is_xu_iff in X. rewrite X, E. destruct r; try (destruct Hc; fail); cbn [tokens].
      * apply in_or_app. left. now apply in_map.
      * right. apply in_or_app. left. now apply in_map.
      * right. now apply in_map.
    + destruct (is_xu e) eqn:E; [apply is_xu_iff in E; contradiction|]. destruct H as [->| ->]; cbn [tokens]; [|right]; apply in_or_app; right; now left.
Qed.
Lemma tokens_allowed : forall r n s items, plain n -> stands s n items -> Forall (fun t => In t (tokens r)) (events n) -> allowed r n.
Proof.
  intros r [t|e kids] s items P ST H; cbn [events] in H.
  - cbn [plain] in P. destruct (forallb py_space t); [left; auto|]. right. inversion H as [|? ? H1 _]; subst. destruct r; vm_compute in H1; unfold text_allowed; try tauto.
    + repeat (destruct H1 as [H1|H1]; [discriminate H1|]). destruct H1.
    + destruct H1 as [H1|[]]. discriminate H1.
  - inversion H as [|? ? H1 _]; subst. destruct (is_xu e) eqn:E.
    + left. apply is_xu_iff in E. split; [exact E|]. inversion ST as [| |? ? ? row ? ? ? F|? ? ? ? X]; subst; [|contradiction].
      assert (NT : forall x, find_row table x = None -> e_local e <> x) by (intros x Hx Ex; rewrite Ex, Hx in F; discriminate F).
      pose proof (NT TEXT eq_refl) as N1. pose proof (NT LITERAL eq_refl) as N2. pose proof (NT EMPTY eq_refl) as N3.
      destruct r; cbn [tokens] in H1.
      * apply in_app_or in H1 as [H1|[H1|[]]]; [|congruence]. apply in_map_iff in H1 as (c & C & Hc). eauto.
      * destruct H1 as [H1|H1]; [congruence|]. apply in_app_or in H1 as [H1|[H1|[]]]; [|congruence]. apply in_map_iff in H1 as (c & C & Hc). eauto.
      * destruct H1 as [H1|H1]; [congruence|]. apply in_map_iff in H1 as (c & C & Hc). eauto.
      * destruct H1 as [H1|[]]. congruence.
      * destruct H1 as [H1|[]]. congruence.
    + right. split; [intro X; apply is_xu_iff in X; congruence|]. destruct r; [now left|now right| | |]; vm_compute in H1; repeat (destruct H1 as [H1|H1]; [discriminate H1|]); destruct H1.
Qed.
Lemma stands_all_in : forall s l items, stands_all s l items -> forall n, In n l -> exists i, stands s n i.
Proof. intros s l items H. induction H as [|s n l a b Ha Hb IH]; intros m Hm; [destruct Hm|]. destruct Hm as [<-|Hm]; eauto. Qed.
Lemma kids_allowed : forall r s kids items, Forall plain kids -> stands_all s kids items ->
  (Forall (fun t => In t (tokens r)) (flat_map events kids) <-> Forall (allowed r) kids).
Proof.
  intros r s kids items P ST. rewrite Forall_flat_map. split; intro H; apply Forall_forall; intros n Hn; rewrite Forall_forall in H.
  - destruct (stands_all_in _ _ _ ST n Hn) as [i Hi]. rewrite Forall_forall in P. eapply tokens_allowed; eauto.
  - apply allowed_tokens. auto.
Qed.
Lemma start_spec : forall e s, (xupdate e -> attr (e_attrs e) (lit "namespace") = None) ->
  forall c fs m t, start_element w_xpath w_avt e s = Ok (c, fs, m, t) <->
  t = (if is_xu e then e_local e else LITERAL) /\
  ((xupdate e /\ exists r, find_row table (e_local e) = Some r /\ fields s (e_attrs e) r = Some fs /\ c = lit (r_class r) /\ m = model (r_rule r)) \/
   (~ xupdate e /\ c = lit "literal_element" /\ m = model Template /\ fs = [(lit "name", FStr (e_tag e)); (lit "namespace", FUri (e_ns e));
      (lit "attributes", FAttrs (map (fun a => (a_ns a, a_qname a, a_value a)) (e_attrs e)))])).
Proof.
  intros e s HN c fs m t. unfold start_element. fold (is_xu e). destruct (is_xu e) eqn:E.
  - pose proof (proj1 (is_xu_iff e) E) as X. pose proof (factory_spec e s (HN X)) as S. destruct (find_row table (e_local e)) as [r|].
    + unfold result_of in S. destruct (fields s (e_attrs e) r) as [f|] eqn:EF.
      * rewrite S. cbn [bind]. split; [intro H; injection H as <- <- <- <-; split; [reflexivity|left; split; [exact X|exists r; auto]]|].
        intros [-> [(_ & r' & R & F' & -> & ->)|(N & _)]]; [|contradiction]. injection R as <-. congruence.
      * destruct S as [er ->]. cbn [bind]. split; [intro H; discriminate H|]. intros [-> [(_ & r' & R & F' & _)|(N & _)]]; [|contradiction]. injection R as <-. congruence.
    + rewrite S. cbn [bind]. split; [intro H; discriminate H|]. intros [-> [(_ & r' & R & _)|(N & _)]]; [discriminate R|contradiction].
  - assert (X : ~ xupdate e) by (intro X; apply is_xu_iff in X; congruence). split.
    + intro H. injection H as <- <- <- <-. split; [reflexivity|]. right. auto.
    + intros [-> [(N & _)|(_ & -> & -> & ->)]]; [contradiction|reflexivity].
Qed.
Lemma plain_kids : forall kids, fold_right and True (map plain kids) <-> Forall plain kids.
Proof. induction kids as [|n l IH]; cbn; [split; auto|]. rewrite Forall_cons_iff, IH. reflexivity. Qed.
Lemma read_iff : forall n, plain n -> forall d k s k' items, read d k s n = Ok (k', items) <-> walk d k (map EName (events n)) = Some k' /\ stands s n items.
Proof.
  induction n as [t|e kids IH] using xnode_ind2; intros P d k s k' items.
  - cbn [plain] in P. cbn [XrModel.read events]. destruct (forallb py_space t) eqn:E; cbn [map walk].
    + split; [intro H; injection H as <- <-; split; [reflexivity|constructor; auto]|]. intros [H ST]. injection H as <-. inversion ST; subst; [reflexivity|]. now elim H1; auto.
    + assert (NB : ~ blank t) by (intro B; apply white_py in B; congruence). destruct (lookup _ _) as [k1|].
      * split; [intro H; injection H as <- <-; split; [reflexivity|now constructor]|]. intros [H ST]. injection H as <-. inversion ST; subst; [contradiction|reflexivity].
      * split; [intro H; discriminate H|]. intros [H _]. discriminate H.
  - destruct P as [PN PK]. apply plain_kids in PK.
    assert (RA : forall d s l, Forall plain l -> incl l kids -> forall k k' items, read_all d s k l = Ok (k', items) <-> walk d k (map EName (flat_map events l)) = Some k' /\ stands_all s l items).
    { clear - IH. intros d s. induction l as [|n l IHl]; intros PL IN k k' items.
      - cbn. split; [intro H; injection H as <- <-; split; [reflexivity|constructor]|]. intros [H ST]. injection H as <-. now inversion ST.
      - inversion PL as [|? ? P1 P2]; subst. rewrite Forall_forall in IH. specialize (IHl P2 (fun x Hx => IN x (or_intror Hx))).
        pose proof (IH n (IN n (or_introl eq_refl)) P1 d k s) as In. cbn [read_all flat_map]. rewrite map_app, walk_app. destruct (read d k s n) as [[k1 i1]|er] eqn:E; cbn [bind fst snd].
        + destruct (proj1 (In k1 i1) eq_refl) as [W1 S1]. rewrite W1. specialize (IHl k1). destruct (read_all d s k1 l) as [[k2 i2]|er2]; cbn [bind fst snd].
          * destruct (proj1 (IHl k2 i2) eq_refl) as [W2 S2]. split; [intro H; injection H as <- <-; split; [exact W2|now constructor]|].
            intros [W ST]. inversion ST as [|? ? ? a b SA SB]; subst. assert (A : Ok (k1, i1) = Ok (k1, a)) by (apply In; auto). injection A as ->.
            assert (B : Ok (k2, i2) = Ok (k', b)) by (apply IHl; auto). injection B as -> ->. reflexivity.
          * split; [intro H; discriminate H|]. intros [W ST]. inversion ST as [|? ? ? a b SA SB]; subst. assert (B : Err er2 = Ok (k', b)) by (apply IHl; auto). discriminate B.
        + split; [intro H; discriminate H|]. intros [W ST]. inversion ST as [|? ? ? a b SA SB]; subst.
          destruct (walk d k (map EName (events n))) as [k1|] eqn:W1; [|discriminate W]. assert (A : Err er = Ok (k1, a)) by (apply In; auto). discriminate A. }
    assert (FIN : forall r d', compile order (model r) = Ok d' -> forall s kk its, read_all d' s 0 kids = Ok (kk, its) -> Forall (allowed r) kids /\ lookup (nth kk d' []) EFinal <> None).
    { intros r d' C s0 kk its R. apply (RA d' s0 kids PK (fun x Hx => Hx)) in R as [W ST]. destruct (compiled order O r) as (d2 & C2 & A & W2). rewrite C in C2. injection C2 as <-.
      assert (FT : Forall (fun n => In n (tokens r)) (flat_map events kids)) by (apply W2; congruence).
      split; [now apply (kids_allowed r s0 kids its)|]. apply A in FT. unfold accepts in FT. rewrite walk_app, W in FT. cbn [walk] in FT. destruct (lookup (nth kk d' []) EFinal); [discriminate|discriminate FT]. }
    assert (BACK : forall r s its, Forall (allowed r) kids -> stands_all s kids its -> exists d' kk, compile order (model r) = Ok d' /\ read_all d' s 0 kids = Ok (kk, its)).
    { intros r s0 its FA ST. destruct (compiled order O r) as (d2 & C2 & A & W2). exists d2.
      assert (W : walk d2 0 (map EName (flat_map events kids)) <> None) by (apply W2; now apply (kids_allowed r s0 kids its)).
      destruct (walk d2 0 (map EName (flat_map events kids))) as [kk|] eqn:E; [|congruence]. exists kk. split; [exact C2|]. apply RA; auto. apply incl_refl. }
    rewrite read_elem. cbn [events map walk]. split.
    + intro H. destruct (start_element _ _ _ _) as [[[[c fs] m] t]|] eqn:S; cbn [bind fst snd] in H; [|discriminate H].
      apply start_spec in S as [-> S]; [|exact PN]. destruct (lookup (nth k d []) _) as [k1|] eqn:L; [|discriminate H].
      destruct (compile order m) as [d'|] eqn:C; cbn [bind] in H; [|discriminate H]. destruct (read_all d' _ _ kids) as [[kk its]|] eqn:R; cbn [bind fst snd] in H; [|discriminate H].
      destruct (lookup (nth kk d' []) EFinal); [|discriminate H]. injection H as <- <-. split; [reflexivity|].
      pose proof (proj2 (proj1 (RA _ _ kids PK (fun x Hx => Hx) _ _ _) R)) as ST.
      destruct S as [(X & r & F & FS & -> & ->)|(X & -> & -> & ->)].
      * eapply stands_xupdate; eauto. eapply FIN; eauto.
      * eapply stands_literal; eauto. eapply (FIN Template); eauto.
    + intros [L ST]. destruct (lookup (nth k d []) _) as [k1|] eqn:LE; [|discriminate L]. injection L as ->.
      inversion ST as [| |? ? ? r fs its X F FS FA SA|? ? ? its X FA SA]; subst.
      * assert (S : start_element w_xpath w_avt e (e_decls e ++ s) = Ok (lit (r_class r), fs, model (r_rule r), if is_xu e then e_local e else LITERAL)).
        { apply start_spec; [exact PN|]. split; [reflexivity|]. left. split; [exact X|]. exists r. auto. }
        rewrite S. cbn [bind fst snd]. rewrite LE. destruct (BACK _ _ _ FA SA) as (d' & kk & C & R). rewrite C. cbn [bind]. rewrite R. cbn [bind fst snd].
        destruct (FIN _ _ C _ _ _ R) as [_ NF]. destruct (lookup (nth kk d' []) EFinal); [reflexivity|congruence].
      * assert (S : start_element w_xpath w_avt e (e_decls e ++ s) = Ok (lit "literal_element", [(lit "name", FStr (e_tag e)); (lit "namespace", FUri (e_ns e));
          (lit "attributes", FAttrs (map (fun a => (a_ns a, a_qname a, a_value a)) (e_attrs e)))], model Template, if is_xu e then e_local e else LITERAL)).
        { apply start_spec; [exact PN|]. split; [reflexivity|]. right. auto. }
        rewrite S. cbn [bind fst snd]. rewrite LE. destruct (BACK _ _ _ FA SA) as (d' & kk & C & R). rewrite C. cbn [bind]. rewrite R. cbn [bind fst snd].
        destruct (FIN _ _ C _ _ _ R) as [_ NF]. destruct (lookup (nth kk d' []) EFinal); [reflexivity|congruence].
Qed.
Lemma read_err : forall n (ok : xnode -> Prop) d k s er,
  (forall t, events n = [t] -> lookup (nth k d []) (EName t) = None -> ~ ok n) -> read d k s n = Err er -> defect ok s n er.
Proof.
  induction n as [t|e kids IH] using xnode_ind2; intros ok d k s er HL H.
  - cbn [XrModel.read] in H. cbn [events] in HL. destruct (forallb py_space t); [discriminate H|]. destruct (lookup _ _) eqn:L; [discriminate H|]. injection H as <-.
    constructor. exact (HL _ eq_refl L).
  - rewrite read_elem in H. destruct (start_element w_xpath w_avt e (e_decls e ++ s)) as [p|e0] eqn:S; cbn [bind] in H.
    + rewrite (start_event _ _ _ S) in H. cbn [events] in HL. destruct (lookup (nth k d []) _) as [k1|] eqn:L; [|injection H as <-; constructor; exact (HL _ eq_refl L)].
      assert (R : exists r, snd (fst p) = model r /\ forall n, In n kids -> defect (allowed r) (e_decls e ++ s) n er -> defect ok s (XElem e kids) er).
      { unfold start_element in S. fold (is_xu e) in S. destruct (is_xu e) eqn:E.
        - apply is_xu_iff in E. destruct (factory e (e_decls e ++ s)) as [q|] eqn:FE; cbn [bind] in S; [|discriminate S]. injection S as <-. cbn [fst snd].
          assert (M : exists r, find_row table (e_local e) = Some r /\ snd q = model (r_rule r)).
          { revert FE. pose proof (eq_refl (find_row table (e_local e))) as F. unfold table in F at 2. revert F. unfold XrModel.factory. cbn [find_row].
            repeat match goal with |- context [str_eqb (e_local e) ?x] => destruct (str_eqb (e_local e) x); [|] end; intros F FE;
            unfold select_command, named_instruction, required, expression, avt in FE; split_h FE; try discriminate FE; injection FE as <-; eexists; split; try exact F; reflexivity. }
          destruct M as (r & F & M). exists (r_rule r). split; [exact M|]. intros n Hn D. eapply d_inside; eauto.
        - injection S as <-. exists Template. split; [reflexivity|]. intros n Hn D. eapply d_literal; eauto. intro X. apply is_xu_iff in X. congruence. }
      destruct R as (r & M & D). rewrite M in H. destruct (compiled order O r) as (d' & C & A & W). rewrite C in H. cbn [bind] in H.
      assert (RA : forall l w k0, incl l kids -> walk d' 0 (map EName w) = Some k0 ->
        match read_all d' (e_decls e ++ s) k0 l with
        | Ok (kk, _) => exists w', walk d' 0 (map EName w') = Some kk
        | Err er' => exists n, In n kids /\ defect (allowed r) (e_decls e ++ s) n er'
        end).
      { clear - IH W O. induction l as [|n l IHl]; intros w k0 IN WK; cbn [read_all]; [eauto|].
        assert (Hn : In n kids) by (apply IN; now left). destruct (read d' k0 (e_decls e ++ s) n) as [[k1 i1]|er1] eqn:E; cbn [bind fst snd].
        - specialize (IHl (w ++ events n) k1 (fun x Hx => IN x (or_intror Hx))). rewrite map_app, walk_app, WK in IHl. specialize (IHl (read_walk _ _ _ _ _ _ E)).
          destruct (read_all d' (e_decls e ++ s) k1 l) as [[k2 i2]|er2]; cbn [bind fst snd]; exact IHl.
        - exists n. split; [exact Hn|]. rewrite Forall_forall in IH. eapply IH; [exact Hn| |exact E]. intros t Et L AL. apply allowed_tokens in AL. rewrite Et in AL.
          assert (K : walk d' 0 (map EName (w ++ [t])) <> None).
          { apply W. apply Forall_app. split; [|exact AL]. apply W. congruence. }
          rewrite map_app, walk_app, WK in K. cbn [map walk] in K. rewrite L in K. congruence. }
      specialize (RA kids [] 0%nat (incl_refl _) eq_refl). destruct (read_all d' (e_decls e ++ s) 0 kids) as [[kk its]|er1]; cbn [bind fst snd] in H.
      * destruct RA as (w' & WK). exfalso. assert (FT : accepts d' (map EName w') = true) by (apply A, W; congruence).
        unfold accepts in FT. rewrite walk_app, WK in FT. cbn [walk] in FT. destruct (lookup (nth kk d' []) EFinal); [discriminate H|discriminate FT].
      * injection H as <-. destruct RA as (n & Hn & Dn). eauto.
    + injection H as <-. unfold start_element in S. fold (is_xu e) in S. destruct (is_xu e) eqn:E; [|discriminate S]. apply is_xu_iff in E.
      destruct (factory e (e_decls e ++ s)) as [q|er1] eqn:FE; cbn [bind] in S; [discriminate S|]. injection S as <-. now apply factory_err.
Qed.
(** The document element *)
Definition modifications (n : xnode) : Prop := exists e kids, n = XElem e kids /\ xupdate e /\ e_local e = lit "modifications".
Lemma root_walk : exists d, compile order m_document = Ok d /\ forall t, walk d 0 [EName t] <> None <-> t = lit "modifications".
Proof.
  destruct (C36_language_partial order m_document O) as (d & C & _ & W); [exact Logic.I|]. exists d. split; [exact C|]. intro t. rewrite (W Logic.I [t]). split.
  - intros (more & M). apply one_name in M. cbn [map app] in M. now injection M.
  - intros ->. exists []. now apply one_name.
Qed.
Lemma root_event : forall e, (if is_xu e then e_local e else LITERAL) = lit "modifications" <-> xupdate e /\ e_local e = lit "modifications".
Proof.
  intro e. rewrite <- is_xu_iff. destruct (is_xu e); [tauto|]. split; [intro H; vm_compute in H; discriminate H|intros [H _]; discriminate H].
Qed.
End Doc.
(** parse accepts exactly the documents that keep the rules, and gives what they stand for. *)
Theorem C120_reads_partial : forall order w_xpath w_avt e kids i, any_order order -> plain (XElem e kids) ->
  (parse order w_xpath w_avt (XElem e kids) = Ok i <-> modifications (XElem e kids) /\ stands w_xpath w_avt initial_scope (XElem e kids) [i]).
Proof.
  intros order xp av e kids i O P. destruct (root_walk order O) as (d & C & W). unfold parse. rewrite C. cbn [bind].
  pose proof (read_iff order O xp av (XElem e kids) P d 0 initial_scope) as R. cbn [events map] in R.
  assert (M : modifications (XElem e kids) <-> walk d 0 [EName (if is_xu e then e_local e else LITERAL)] <> None).
  { rewrite W, root_event. split; [intros (e' & k' & E & X); injection E as -> ->; exact X|intro X; exists e, kids; auto]. }
  rewrite M. destruct (read order xp av d 0 initial_scope (XElem e kids)) as [[k its]|er] eqn:E; cbn [bind snd].
  - destruct (proj1 (R k its) eq_refl) as [W1 ST]. assert (S : exists j, its = [j]) by (inversion ST; eauto). destruct S as (j & ->). split.
    + intro H. injection H as <-. split; [congruence|exact ST].
    + intros [_ S2]. assert (K : Ok (k, [j]) = Ok (k, [i])) by (apply R; auto). now injection K as ->.
  - split; [intro H; discriminate H|]. intros [W1 ST]. destruct (walk d 0 [EName _]) as [k|] eqn:WK; [|congruence].
    assert (K : Err er = Ok (k, [i])) by (apply R; auto). discriminate K.
Qed.
Print Assumptions C120_reads_partial.
(** Every error is deserved: there is something in the document it is the error for. *)
Theorem C120_errors : forall order w_xpath w_avt e kids er, any_order order -> parse order w_xpath w_avt (XElem e kids) = Err er ->
  defect w_xpath w_avt modifications initial_scope (XElem e kids) er.
Proof.
  intros order xp av e kids er O H. destruct (root_walk order O) as (d & C & W). unfold parse in H. rewrite C in H. cbn [bind] in H.
  destruct (read order xp av d 0 initial_scope (XElem e kids)) as [[k its]|er1] eqn:E; cbn [bind snd] in H.
  - destruct its as [|i its]; [|discriminate H]. exfalso. rewrite read_elem in E. destruct (start_element _ _ _ _) as [p|]; cbn [bind] in E; [|discriminate E].
    destruct (lookup _ _); [|discriminate E]. destruct (compile order (snd (fst p))); cbn [bind] in E; [|discriminate E].
    destruct (read_all _ _ _ _ _ _ _) as [r|]; cbn [bind] in E; [|discriminate E]. destruct (lookup _ EFinal); discriminate E.
  - injection H as <-. eapply read_err; [exact O| |exact E]. cbn [events]. intros t Et L (e' & k' & Ee & X). injection Ee as <- <-. apply root_event in X.
    injection Et as <-. apply W in X. cbn [walk] in X. rewrite L in X. congruence.
Qed.
Print Assumptions C120_errors.
(** A namespace for the name of a new element makes the reader fail. *)
Definition xe (local : string) (attrs : list (string * string)) (kids : list xnode) : xnode :=
  XElem {| e_ns := Some XUPDATE_NAMESPACE; e_local := lit local; e_tag := lit "xu:" ++ lit local; e_decls := [];
           e_attrs := map (fun a => {| a_ns := None; a_local := lit (fst a); a_qname := lit (fst a); a_value := lit (snd a) |}) attrs |} kids.
Definition sheet (kids : list xnode) : xnode := xe "modifications" [("version", "1.0")]%string kids.
Definition all (s : str) : bool := true.
Theorem C120_namespace_refuted : exists root i, modifications root /\ stands all all initial_scope root [i] /\ parse same_order all all root = Err TypeError.
Proof.
  exists (sheet [xe "append" [("select", "/a")] [xe "element" [("name", "b"); ("namespace", "urn:b")] []]]%string). eexists.
  split; [eexists _, _; repeat split|]. split; [|vm_compute; reflexivity].
  assert (B : forall l, Forall (allowed Commands) [xe "append" [("select", "/a")] l]%string) by (intro l; constructor; [left; split; [reflexivity|eexists; split; [|reflexivity]; cbn; auto]|constructor]).
  eapply stands_xupdate; [reflexivity|vm_compute; reflexivity|vm_compute; reflexivity|apply B|].
  change (?l) with l. eapply (stands_cons _ _ _ _ _ [_] []); [|constructor].
  eapply stands_xupdate; [reflexivity|vm_compute; reflexivity|vm_compute; reflexivity|constructor; [left; split; [reflexivity|eexists; split; [|reflexivity]; cbn; auto]|constructor]|].
  eapply (stands_cons _ _ _ _ _ [_] []); [|constructor].
  eapply stands_xupdate; [reflexivity|vm_compute; reflexivity|vm_compute; reflexivity|constructor|constructor].
Qed.
Print Assumptions C120_namespace_refuted.
(** A variable whose name is no name: AttributeError instead of an XUpdateError. *)
Theorem C120_variable_refuted : parse same_order all all (sheet [xe "variable" [("name", "1")] []]%string) = Err AttributeError.
Proof. vm_compute. reflexivity. Qed.
Print Assumptions C120_variable_refuted.
(** White space in xupdate:text is lost, and a no-break space is accepted, and lost, where no text is allowed. *)
Theorem C120_space_refuted :
  parse same_order all all (sheet [xe "append" [("select", "/a")] [xe "text" [] [XText (lit " ")]]]%string) =
  parse same_order all all (sheet [xe "append" [("select", "/a")] [xe "text" [] []]]%string) /\
  ~ allowed Commands (XText [160]) /\ exists i, parse same_order all all (sheet [XText [160]]) = Ok i.
Proof.
  split; [vm_compute; reflexivity|]. split; [|eexists; vm_compute; reflexivity].
  intros [H|H]; [inversion H as [|? ? [K|[K|[K|K]]] _]; discriminate K|destruct H as [K|[K|K]]; discriminate K].
Qed.
Print Assumptions C120_space_refuted.
Definition case_doc : xnode := sheet [XText (lit " "); xe "append" [("select", "/a")] [XText (lit "t"); xe "value-of" [("select", "b")] []];
  xe "if" [("test", "1")] [xe "remove" [("select", "c")] []]]%string.
Example C120_case : plain case_doc /\ exists i, parse same_order all all case_doc = Ok i /\
  (exists a b, i = Item (lit "modifications_list") [] [a; b]).
Proof.
  split; [cbn; repeat split; try reflexivity; intro H; try discriminate H; constructor; [unfold white; auto|constructor]|].
  eexists. split; [vm_compute; reflexivity|]. eexists _, _. reflexivity.
Qed.
Example C120_case_error : parse same_order all all (sheet [xe "remove" [("select", "c")] [xe "text" [] []]]%string) = Err ILLEGAL_ELEMENT_CHILD /\
  parse same_order all all (sheet [XText (lit "x")]) = Err INVALID_TEXT /\ parse same_order all all (sheet [xe "append" [] []]) = Err MISSING_REQUIRED_ATTRIBUTE.
Proof. repeat split; vm_compute; reflexivity. Qed.
(** C120: what the specification takes from the model: an attribute is the first one without namespace and with the name, a
    prefix stands for the innermost declaration of it. *)
Theorem C120_lookups :
  (forall l name v, attr l name = Some v <->
     exists l1 a l2, l = l1 ++ a :: l2 /\ a_ns a = None /\ a_local a = name /\ a_value a = v /\ Forall (fun b => ~ (a_ns b = None /\ a_local b = name)) l1) /\
  (forall l name, attr l name = None <-> Forall (fun b => ~ (a_ns b = None /\ a_local b = name)) l) /\
  (forall s p u, ns_get s p = Some u <-> exists s1 s2, s = s1 ++ (p, u) :: s2 /\ ~ In p (map fst s1)) /\
  (forall s p, ns_get s p = None <-> ~ In p (map fst s)).
Proof.
  assert (T : forall a name, ostr_eqb (a_ns a) None && str_eqb (a_local a) name = true <-> a_ns a = None /\ a_local a = name).
  { intros a name. rewrite andb_true_iff, str_eqb_eq. unfold ostr_eqb. destruct (a_ns a); split; intros [H1 H2]; split; congruence. }
  assert (T' : forall a name, ostr_eqb (a_ns a) None && str_eqb (a_local a) name = false <-> ~ (a_ns a = None /\ a_local a = name)).
  { intros a name. rewrite <- T. destruct (ostr_eqb (a_ns a) None && str_eqb (a_local a) name); split; intro H; congruence. }
  assert (U : forall p q, ostr_eqb p q = true <-> p = q).
  { intros [p|] [q|]; cbn [ostr_eqb]; try (split; intro H; congruence). rewrite str_eqb_eq. split; congruence. }
  assert (N1 : forall l name, attr l name = None <-> Forall (fun b => ~ (a_ns b = None /\ a_local b = name)) l).
  { intros l name. induction l as [|a l IH]; cbn [attr]; [split; [constructor|reflexivity]|].
    destruct (ostr_eqb (a_ns a) None && str_eqb (a_local a) name) eqn:E.
    - split; [intro H; discriminate H|]. intro H. inversion H as [|? ? H1 _]; subst. apply T' in H1. congruence.
    - rewrite IH. apply T' in E. split; [intro H; constructor; assumption|intro H; inversion H; assumption]. }
  assert (N2 : forall s p, ns_get s p = None <-> ~ In p (map fst s)).
  { intros s p. induction s as [|[q u] s IH]; cbn [ns_get map fst In]; [split; [intros _ H; exact H|reflexivity]|].
    destruct (ostr_eqb q p) eqn:E.
    - apply U in E. split; [intro H; discriminate H|]. intro H. exfalso. apply H. left. exact E.
    - rewrite IH. assert (q <> p) by (intro K; apply U in K; congruence). tauto. }
  split; [|split; [exact N1|split; [|exact N2]]].
  - intros l name v. split.
    + induction l as [|a l IH]; cbn [attr]; intro H; [discriminate H|]. destruct (ostr_eqb (a_ns a) None && str_eqb (a_local a) name) eqn:E.
      * apply T in E. destruct E as [E1 E2]. injection H as H. exists [], a, l. split; [reflexivity|]. split; [exact E1|]. split; [exact E2|]. split; [exact H|constructor].
      * apply T' in E. destruct (IH H) as (l1 & b & l2 & -> & B1 & B2 & B3 & B4). exists (a :: l1), b, l2. split; [reflexivity|]. split; [exact B1|]. split; [exact B2|]. split; [exact B3|constructor; assumption].
    + intros (l1 & a & l2 & -> & A1 & A2 & A3 & A4). induction A4 as [|b l1 Hb A4 IH]; cbn [app attr].
      * rewrite (proj2 (T a name) (conj A1 A2)), A3. reflexivity.
      * rewrite (proj2 (T' b name) Hb). exact IH.
  - intros s p u. split.
    + induction s as [|[q w] s IH]; cbn [ns_get]; intro H; [discriminate H|]. destruct (ostr_eqb q p) eqn:E.
      * apply U in E. injection H as H. subst q w. exists [], s. split; [reflexivity|intros []].
      * destruct (IH H) as (s1 & s2 & -> & K). exists ((q, w) :: s1), s2. split; [reflexivity|]. cbn [map fst In]. intros [X|X]; [apply U in X; congruence|exact (K X)].
    + intros (s1 & s2 & -> & K). induction s1 as [|[q w] s1 IH]; cbn [app ns_get].
      * rewrite (proj2 (U p p) eq_refl). reflexivity.
      * cbn [map fst In] in K. destruct (ostr_eqb q p) eqn:E; [apply U in E; exfalso; apply K; left; exact E|]. apply IH. intro X. apply K. right. exact X.
Qed.
Print Assumptions C120_lookups.
