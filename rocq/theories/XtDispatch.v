(** * Model of the choice of template rules: the xsl:template part of
      transform_element.setup, apply_templates and apply_imports of
      lib/xslt/tree/transform_element.py, and the attributes node_type, name_key and
      priority of patterns and node tests

    The patterns are those of XtPattern.  A dictionary of lists filled by append is
    the sequence of what was appended: the list under a key is what has that key, in
    that order.  The order in which a dictionary is iterated decides only how often
    some entries are repeated in a list; the functions [late_type] and [late_name]
    stand for it (is the key visited after the key for any node, or for any name?).
    [sort] is list.sort(reverse=True), which compares the sort keys first and then
    addresses of objects.  Priorities are rationals.  Modes are compared as
    strings. *)
From Coq Require Import NArith ZArith QArith String List Bool Lia Arith.
From Verif Require Import PyStr PyErr DomModel DomSpec XpModel XpPath XtPattern.
Import ListNotations.
Local Open Scope nat_scope.

(** An xsl:template element: its [_match], [_mode], [_priority], [import_precedence]
    and [namespaces], template_element.py:22-27. *)
Record template := { tm_match : list lpattern; tm_mode : option str; tm_priority : option Q; tm_prec : nat; tm_ns : str -> option str }.

(** node_test.node_type, nodetests.py:18, 65, 73, 78, 83, 115, and xpatterns/__init__.py:96,
    125, 137; None is tree.node. *)
Definition plain_type (t : ntest) : option kind :=
  match t with TNode => None | TComment => Some KComment | TText => Some KText | TPI _ => Some KPI | _ => Some KElement end.
Definition test_type (t : ptest) : option kind :=
  match t with PTest t | PPredicated t _ => plain_type t | PDocument => Some KEntity | PIdKey _ => None end.
(** pattern.__init__, xpatterns/__init__.py:40-45. *)
Definition pattern_type (steps : list ptuple) : option kind :=
  match steps with
  | [] => None
  | t :: _ => match pt_axis t with Some KAttr => Some KAttr | _ => test_type (pt_test t) end
  end.
(** node_test.name_key, nodetests.py:21, 148, 195 and xpatterns/__init__.py:95. *)
Definition plain_key (t : ntest) : option (option str * str) :=
  match t with TLocal n => Some (None, n) | TQName p n => Some (Some p, n) | _ => None end.
Definition test_key (t : ptest) : option (option str * str) := match t with PTest t | PPredicated t _ => plain_key t | _ => None end.
(** pattern.__init__, xpatterns/__init__.py:46-50: [node_test] is the pattern itself if
    it has several steps, and the class attribute [name_key] is None. *)
Definition pattern_key (steps : list ptuple) : option (option str * str) := match steps with [t] => test_key (pt_test t) | _ => None end.
(** node_test.priority, nodetests.py:17, 85-92, 144, 165, 192 and
    xpatterns/__init__.py:39, 90, 124, 136. *)
Definition plain_priority (t : ntest) : Q :=
  match t with
  | TLocal _ | TQName _ _ | TPI (Some _) => 0
  | TPrefix _ => - (1 # 4)
  | _ => - (1 # 2)
  end.
Definition test_priority (t : ptest) : Q := match t with PTest t => plain_priority t | _ => 1 # 2 end.
Definition pattern_priority (steps : list ptuple) : Q := match steps with [t] => test_priority (pt_test t) | _ => 1 # 2 end.

(** The tuple [info] with the keys under which it is filed,
    transform_element.py:383-409. *)
Record entry := { en_prec : nat; en_prio : Q; en_pos : nat; en_steps : list ptuple; en_tm : template; en_type : option kind; en_key : option (option str * str) }.
Fixpoint parse_all (ps : list lpattern) : result (list (list ptuple)) :=
  match ps with [] => Ok [] | p :: ps' => do x <- pattern_steps p ; do l <- parse_all ps' ; Ok (x :: l) end.
(** transform_element.py:391-403: the name key with the prefix resolved. *)
Definition resolve (t : template) (k : option (option str * str)) : result (option (option str * str)) :=
  match k with
  | Some (Some prefix, n) => match tm_ns t prefix with Some u => Ok (Some (Some u, n)) | None => Err UndefinedPrefix end
  | _ => Ok k
  end.
Definition pattern_entry (position : nat) (t : template) (steps : list ptuple) : result entry :=
  let type := pattern_type steps in
  do key <- match type with Some KElement => resolve t (pattern_key steps) | _ => Ok None end ;
  Ok {| en_prec := tm_prec t; en_prio := match tm_priority t with Some q => q | None => pattern_priority steps end; en_pos := position;
        en_steps := steps; en_tm := t; en_type := type; en_key := key |}.
Fixpoint pattern_entries (position : nat) (t : template) (l : list (list ptuple)) : result (list entry) :=
  match l with [] => Ok [] | steps :: l' => do e <- pattern_entry position t steps ; do r <- pattern_entries position t l' ; Ok (e :: r) end.
(** The loop over [enumerate(elements)], transform_element.py:370-409. *)
Fixpoint enumerate_entries (position : nat) (elements : list template) : result (list entry) :=
  match elements with
  | [] => Ok []
  | t :: rest =>
    do l <- parse_all (tm_match t) ; do es <- pattern_entries position t l ; do r <- enumerate_entries (S position) rest ; Ok (es ++ r)
  end.
(** [elements.reverse()], transform_element.py:368. *)
Definition all_entries (templates : list template) : result (list entry) := enumerate_entries 0 (rev templates).

Definition mode_eqb (a b : option str) : bool := match a, b with None, None => true | Some u, Some v => str_eqb u v | _, _ => false end.
Definition kind_is (k : option kind) (e : entry) : bool :=
  match k, en_type e with None, None => true | Some a, Some b => kind_eqb a b | _, _ => false end.
Definition key_is (k : option (option str * str)) (e : entry) : bool :=
  match k, en_key e with
  | None, None => true
  | Some (u, n), Some (v, m) => match u, v with None, None => str_eqb n m | Some a, Some b => str_eqb a b && str_eqb n m | _, _ => false end
  | _, _ => false
  end.

Section Choose.
Variables (sort : list entry -> list entry) (late_type : option kind -> bool) (late_name : option str * str -> bool).
Variables (s : store) (nm : names) (size : nat).

(** The expanded tables, transform_element.py:418-442, and the lookup, 605-622; also
    529-546. *)
Definition mode_entries (es : list entry) (mode : option str) : list entry := filter (fun e => mode_eqb (tm_mode (en_tm e)) mode) es.
Definition rules_for (es : list entry) (mode : option str) (x : nat) : list entry :=
  let table := mode_entries es mode in
  let any := filter (kind_is None) table in
  let any_at k := if late_type k then any ++ any else any in
  match kind_of s x with
  | None => []
  | Some k =>
    let typed := filter (kind_is (Some k)) table in
    match typed with
    | [] => match table with [] => [] | _ => sort (any ++ any) end
    | _ =>
      match k with
      | KElement =>
        let name := (nm_ns nm x, nm_local nm x) in
        let wild := filter (key_is None) typed in
        match filter (key_is (Some name)) typed with
        | [] => sort (wild ++ any_at (Some k))
        | named => sort (named ++ (if late_name name then wild ++ any_at (Some k) else wild) ++ any_at (Some k))
        end
      | _ => sort (typed ++ any_at (Some k))
      end
    end
  end.
(** [pattern.match(context, node, axis_type)] with [context.namespaces = template.namespaces],
    transform_element.py:626-627; [pattern] is the only step or the whole pattern. *)
Definition entry_match (e : entry) (x : nat) : result bool :=
  match en_steps e with
  | [t] => ptest_match (tm_ns (en_tm e)) s nm size (pt_test t) x (pt_axis t)
  | steps => steps_match (tm_ns (en_tm e)) s nm size steps x
  end.
(** The loop, transform_element.py:625-632. *)
Fixpoint first_rule (l : list entry) (x : nat) : result (option entry) :=
  match l with
  | [] => Ok None
  | e :: l' => do b <- entry_match e x ; if b then Ok (Some e) else first_rule l' x
  end.
Definition choose (templates : list template) (mode : option str) (x : nat) : result (option template) :=
  do es <- all_entries templates ; do r <- first_rule (rules_for es mode x) x ; Ok (option_map en_tm r).
(** The loop of apply_imports, transform_element.py:549-557. *)
Fixpoint first_import (precedence : nat) (l : list entry) (x : nat) : result (option entry) :=
  match l with
  | [] => Ok None
  | e :: l' =>
    if en_prec e <? precedence then do b <- entry_match e x ; if b then Ok (Some e) else first_import precedence l' x
    else first_import precedence l' x
  end.
Definition choose_import (templates : list template) (mode : option str) (precedence : nat) (x : nat) : result (option template) :=
  do es <- all_entries templates ; do r <- first_import precedence (rules_for es mode x) x ; Ok (option_map en_tm r).

(** apply_templates, transform_element.py:573-672, with the built-in rules.  What a
    template does is the universally quantified [body], which gets the template, the node,
    its position and the number of nodes. *)
Variable body : template -> nat -> nat -> nat -> result str.
Variable templates : list template.
Fixpoint apply_nodes (applying : nat -> result str) (mode : option str) (nodes : list nat) (position last : nat) : result str :=
  match nodes with
  | [] => Ok []
  | x :: rest =>
    do t <- choose templates mode x ;
    do out <- match t with Some t => body t x position last | None => applying x end ;
    do more <- apply_nodes applying mode rest (S position) last ;
    Ok (out ++ more)
  end.
(** transform_element.py:664-667. *)
Fixpoint builtin (fuel : nat) (mode : option str) (x : nat) : result str :=
  match fuel with
  | O => Err Diverges
  | S f =>
    if is_element s x || is_entity s x then do l <- get_children s x ; apply_nodes (builtin f mode) mode l 1 (length l)
    else if has_kind s KText x || has_kind s KAttr x then match get s x with Some n => Ok (n_data n) | None => Err AttributeError end
    else Ok []
  end.
Definition apply_templates (mode : option str) (nodes : list nat) : result str := apply_nodes (builtin (bound s) mode) mode nodes 1 (length nodes).
End Choose.
