(** * Model of DTD content models and of the validator
      (lib/src/expat/content_model.c, validation.c and the callers in expat.c)

    Simplifications: memory allocation does not fail; errors are reported to a
    handler that does not raise (report_error gives EXPAT_STATUS_OK); attributes
    are left out. *)
From Coq Require Import NArith ZArith String List Bool Lia Arith.
From Verif Require Import PyStr PyErr HashModel.
Import ListNotations.
Local Open Scope nat_scope.

Definition SystemError : exn := OtherError 5.

(** Events, the keys of the state dictionaries: element names (unicode strings),
    the string "#PCDATA" (content_model_pcdata), and three unique tokens:
    empty_event (expat.c:112), ContentModel_FinalEvent and epsilon_event
    (content_model.c:6-7).  No element name is "#PCDATA". *)
Inductive event := EName (n : str) | EPcdata | EEmpty | EFinal | EEpsilon.
Definition event_eqb (a b : event) : bool :=
  match a, b with
  | EName x, EName y => str_eqb x y
  | EPcdata, EPcdata | EEmpty, EEmpty | EFinal, EFinal | EEpsilon, EEpsilon => true
  | _, _ => false
  end.

(** Dictionaries: lists of pairs with different keys. *)
Fixpoint lookup {A} (d : list (event * A)) (e : event) : option A :=
  match d with [] => None | (e', a) :: d' => if event_eqb e' e then Some a else lookup d' e end.
Fixpoint update {A} (d : list (event * A)) (e : event) (a : A) : list (event * A) :=
  match d with [] => [(e, a)] | (e', a') :: d' => if event_eqb e' e then (e', a) :: d' else (e', a') :: update d' e a end.

(** ** The non-deterministic automaton *)
Definition nfa := list (list (event * list nat)).
(** ContentModel_New, content_model.c:24-42. *)
Definition new_nfa : nfa := [[]; []].
(** ContentModel_NewState, content_model.c:45-65. *)
Definition new_state (m : nfa) : nfa * nat := (m ++ [[]], length m).
Definition targets (m : nfa) (s : nat) (e : event) : list nat := match lookup (nth s m []) e with Some ts => ts | None => [] end.
(** ContentModel_AddTransition, content_model.c:68-111.  Simplification: the
    check of from_state against the size is left out; the states given are always
    states of the model. *)
Definition add_transition (m : nfa) (e : event) (from_state to_state : nat) : nfa :=
  set_slot m from_state (update (nth from_state m []) e (targets m from_state e ++ [to_state])).
(** ContentModel_AddEpsilonMove, content_model.c:114-120. *)
Definition add_epsilon (m : nfa) (from_state to_state : nat) : nfa := add_transition m EEpsilon from_state to_state.

(** ** Content models *)
(** ContentModel objects (content_model.c:405-427, 565-626) and expat's
    XML_Content; the type Mixed occurs only in the latter, at the top, with the
    quantity Rep (expat.c:2933-2934). *)
Inductive quant := One | Opt | Rep | Plus.
Inductive content :=
  | CName (q : quant) (n : str)
  | CSeq (q : quant) (l : list content)
  | CAlt (q : quant) (l : list content)
  | CMixed (q : quant) (l : list content).
Definition quant_of (c : content) : quant := match c with CName q _ | CSeq q _ | CAlt q _ | CMixed q _ => q end.

(** compile_content, compile_name, compile_seq, compile_alt, content_model.c:437-558
    and parse_content, parse_name, parse_seq, parse_choice, expat.c:2661-2799.
    parse_seq has no test for an empty sequence; expat does not build one. *)
Fixpoint compile_content (c : content) (i f : nat) (m : nfa) {struct c} : result nfa :=
  let body (mixed_ok : bool) (i f : nat) (m : nfa) : result nfa :=
    let alt :=
      fix alt (l : list content) (m : nfa) : result nfa :=
        match l with [] => Ok m | x :: l' => do m' <- compile_content x i f m ; alt l' m' end in
    match c with
    | CName _ n => Ok (add_transition m (EName n) i f)
    | CSeq _ l =>
      (fix seq (l : list content) (i : nat) (m : nfa) : result nfa :=
        match l with
        | [] => Ok m
        | x :: l' =>
          match l' with
          | [] => compile_content x i f m
          | _ => let '(m', s) := new_state m in do m'' <- compile_content x i s m' ; seq l' s m''
          end
        end) l i m
    | CAlt _ l => alt l m
    | CMixed _ l => if mixed_ok then alt l (add_transition m EPcdata i f) else Err SystemError
    end in
  let repeated (m : nfa) : result nfa :=
    let '(m, s1) := new_state m in
    let '(m, s2) := new_state m in
    do m <- body true s1 s2 (add_epsilon m i s1) ;
    Ok (add_epsilon (add_epsilon m s2 s1) s2 f) in
  match quant_of c with
  | Opt => body false i f (add_epsilon m i f)
  | One => body false i f m
  | Rep => repeated (add_epsilon m i f)
  | Plus => repeated m
  end.

(** ** The subset construction *)
Section Order.
(** PyDict_Next goes through a dictionary in some order. *)
Variable order : forall {A}, list A -> list A.

Definition mem (n : nat) (l : list nat) : bool := existsb (Nat.eqb n) l.
(** add_to_epsilon_closure, content_model.c:128-150.  The fuel is the depth of
    the recursion. *)
Fixpoint add_closure (fuel : nat) (m : nfa) (n : nat) (set : list nat) : result (list nat) :=
  match fuel with
  | O => Err Diverges
  | S fu =>
    if mem n set then Ok set
    else
      (fix go (ts set : list nat) : result (list nat) :=
        match ts with [] => Ok set | t :: ts' => do set' <- add_closure fu m t set ; go ts' set' end) (targets m n EEpsilon) (set ++ [n])
  end.
(** epsilon_closure, content_model.c:153-165. *)
Definition closure (m : nfa) (n : nat) : result (list nat) := add_closure (S (length m)) m n [].
Definition merge (a b : list nat) : list nat := a ++ filter (fun x => negb (mem x a)) b.
(** set_epsilon_closure, content_model.c:170-188. *)
Fixpoint set_closure (m : nfa) (set ts : list nat) : result (list nat) :=
  match ts with [] => Ok set | t :: ts' => do c <- closure m t ; set_closure m (merge set c) ts' end.

(** make_key, content_model.c:193-211. *)
Fixpoint insert (n : nat) (l : list nat) : list nat := match l with [] => [n] | x :: l' => if n <=? x then n :: l else x :: insert n l' end.
Definition make_key (set : list nat) : list nat := fold_right insert [] (order set).

(** A deterministic automaton: its states are dictionaries from events to
    states, here to their numbers. *)
Definition dfa := list (list (event * nat)).
Record build := { b_dfa : dfa; b_keys : list (list nat * nat); b_sets : list (list nat) }.
Fixpoint find_key (l : list (list nat * nat)) (k : list nat) : option nat :=
  match l with [] => None | (k', n) :: l' => if list_eq_dec Nat.eq_dec k' k then Some n else find_key l' k end.
(** map_old_to_new, content_model.c:216-267: [b_keys] is old_to_new_map, [b_sets]
    is new_to_old_map. *)
Definition map_old_to_new (b : build) (set : list nat) : build * nat :=
  let key := make_key set in
  match find_key (b_keys b) key with
  | Some n => (b, n)
  | None => ({| b_dfa := b_dfa b ++ [[]]; b_keys := b_keys b ++ [(key, length (b_dfa b))]; b_sets := b_sets b ++ [set] |}, length (b_dfa b))
  end.

(** The loops of ContentModel_Compile that collect the transitions of one state,
    content_model.c:342-374. *)
Fixpoint collect_state (m : nfa) (items : list (event * list nat)) (trans : list (event * list nat)) : result (list (event * list nat)) :=
  match items with
  | [] => Ok trans
  | (e, ts) :: items' =>
    if event_eqb e EEpsilon then collect_state m items' trans
    else
      do set <- set_closure m (match lookup trans e with Some s => s | None => [] end) ts ;
      collect_state m items' (update trans e set)
  end.
Fixpoint collect_set (m : nfa) (states : list nat) (trans : list (event * list nat)) : result (list (event * list nat)) :=
  match states with
  | [] => Ok trans
  | s :: states' =>
    if length m <=? s then Err SystemError
    else do trans' <- collect_state m (order (nth s m [])) trans ; collect_set m states' trans'
  end.
(** content_model.c:376-385. *)
Fixpoint add_transitions (b : build) (k : nat) (trans : list (event * list nat)) : build :=
  match trans with
  | [] => b
  | (e, set) :: trans' =>
    let '(b', n) := map_old_to_new b set in
    add_transitions {| b_dfa := set_slot (b_dfa b') k (update (nth k (b_dfa b') []) e n); b_keys := b_keys b'; b_sets := b_sets b' |} k trans'
  end.
(** The main loop, content_model.c:323-386. *)
Fixpoint determinize (fuel : nat) (m : nfa) (b : build) (k : nat) : result build :=
  match fuel with
  | O => Err Diverges
  | S fu =>
    if k <? length (b_dfa b) then
      do trans <- collect_set m (order (nth k (b_sets b) [])) [] ;
      determinize fu m (add_transitions b k (order trans)) (S k)
    else Ok b
  end.
(** ContentModel_Compile, content_model.c:274-403; the initial state is 0. *)
Definition compile_nfa (m : nfa) : result dfa :=
  let '(m, final_state) := new_state m in
  let m := add_transition m EFinal 1 final_state in
  do set <- closure m 0 ;
  let '(b, _) := map_old_to_new {| b_dfa := []; b_keys := []; b_sets := [] |} set in
  do b <- determinize (S (2 ^ length m)) m b 0 ;
  Ok (b_dfa b).
(** ContentModel.compile(), content_model.c:651-666. *)
Definition compile (c : content) : result dfa := do m <- compile_content c 0 1 new_nfa ; compile_nfa m.

(** How callers use the result: follow the events, then look for FINAL_EVENT. *)
Fixpoint walk (d : dfa) (k : nat) (w : list event) : option nat :=
  match w with [] => Some k | e :: w' => match lookup (nth k d []) e with Some k' => walk d k' w' | None => None end end.
Definition accepts (d : dfa) (w : list event) : bool := match walk d 0 (w ++ [EFinal]) with Some _ => true | None => false end.

(** ** Element declarations *)
(** The content of an ELEMENT declaration. *)
Inductive spec := DAny | DEmpty | DContent (c : content).
(** expat_ElementDecl, expat.c:2917-2948: the automaton, None for ANY. *)
Definition element_model (s : spec) : result (option dfa) :=
  match s with
  | DAny => Ok None
  | DEmpty => rmap Some (compile_nfa (add_transition (add_epsilon new_nfa 0 1) EEmpty 0 1))
  | DContent c => rmap Some (compile c)
  end.

(** ** The validator *)
(** A state is a dictionary of the automaton of some element type; NULL is None. *)
Definition pstate := option (dfa * nat).
Record context := { c_element : option (option dfa); c_state : pstate }.
Record validator := { v_elements : list (str * option dfa); v_context : list context; v_free : list context }.
Definition new_validator : validator := {| v_elements := []; v_context := []; v_free := [] |}.
Fixpoint find_element (l : list (str * option dfa)) (n : str) : option (option dfa) :=
  match l with [] => None | (n', t) :: l' => if str_eqb n' n then Some t else find_element l' n end.
(** Validator_AddElementType, validation.c:235-253: the first declaration is
    kept. *)
Definition add_element_type (v : validator) (n : str) (t : option dfa) : validator :=
  match find_element (v_elements v) n with
  | Some _ => v
  | None => {| v_elements := v_elements v ++ [(n, t)]; v_context := v_context v; v_free := v_free v |}
  end.
Definition declare_element (v : validator) (d : str * spec) : result validator := do t <- element_model (snd d) ; Ok (add_element_type v (fst d) t).
Fixpoint declare_elements (v : validator) (ds : list (str * spec)) : result validator :=
  match ds with [] => Ok v | d :: ds' => do v' <- declare_element v d ; declare_elements v' ds' end.

(** transit_event, validation.c:283-328. *)
Definition transit_event (v : validator) (e : event) (save : bool) : validator * bool :=
  match v_context v with
  | [] => (v, true)
  | c :: cs =>
    match c_state c with
    | None => (v, true)
    | Some (d, k) =>
      match lookup (nth k d []) e with
      | None => (v, false)
      | Some k' =>
        (if save then {| v_elements := v_elements v; v_context := {| c_element := c_element c; c_state := Some (d, k') |} :: cs; v_free := v_free v |} else v, true)
      end
    end
  end.
Definition validate_event (v : validator) (e : event) : validator * bool := transit_event v e true.
Definition check_event (v : validator) (e : event) : validator * bool := transit_event v e false.

(** Validator_StartElement, validation.c:343-387: a context from the free list
    keeps its state if the element is not declared. *)
Definition start_element (v : validator) (n : str) : validator * bool :=
  let t := find_element (v_elements v) n in
  let '(old_state, free) := match v_free v with [] => (None, []) | c :: free' => (c_state c, free') end in
  let st := match t with Some (Some d) => Some (d, 0) | Some None => None | None => old_state end in
  ({| v_elements := v_elements v; v_context := {| c_element := t; c_state := st |} :: v_context v; v_free := free |}, match t with Some _ => true | None => false end).
(** Validator_EndElement, validation.c:390-431. *)
Definition end_element (v : validator) : validator * bool :=
  match v_context v with
  | [] => (v, true)
  | _ =>
    let '(v', valid) := validate_event v EFinal in
    match v_context v' with
    | c :: cs => ({| v_elements := v_elements v'; v_context := cs; v_free := c :: v_free v' |}, valid)
    | [] => (v', valid)
    end
  end.

(** ** What the parser does with it *)
(** An element with its content.  A text is a maximal run of characters (the
    parser collects them in a buffer, expat.c:1172-1175); [ws]: only white space;
    [keep]: white space is preserved here (preserve_whitespace_stack). *)
Inductive node := Elem (n : str) (kids : list node) | Text (ws keep : bool).
(** What becomes of a text: reported as characters, as ignorable white space, not
    at all, as the error INVALID_TEXT, or a NULL element type is used. *)
Inductive text_outcome := Characters | Ignorable | Dropped | InvalidText | NullType.
(** charbuf_report_error, expat.c:1177-1184. *)
Definition report_text (v : validator) : text_outcome :=
  match v_context v with c :: _ => match c_element c with Some _ => InvalidText | None => NullType end | [] => NullType end.
(** charbuf_flush and charbuf_callback, expat.c:1186-1285, with validation on. *)
Definition text_event (v : validator) (ws keep : bool) : validator * text_outcome :=
  if ws && negb keep then
    let '(v, empty) := check_event v EEmpty in (v, if empty then report_text v else Dropped)
  else
    let '(v, text) := check_event v EPcdata in
    if text then (v, Characters)
    else if ws then let '(v, empty) := check_event v EEmpty in (v, if empty then report_text v else Ignorable)
    else (v, report_text v).

(** The verdicts on an element and its content: [accepted] is false for the error
    INVALID_ELEMENT (reported for the parent's content), or ROOT_ELEMENT_MISMATCH
    for the root; [declared] is false for UNDECLARED_ELEMENT; [complete] is false
    for INCOMPLETE_ELEMENT. *)
Inductive report := RElem (accepted declared : bool) (kids : list report) (complete : bool) | RText (o : text_outcome).

(** validate_element and expat_EndElement, expat.c:1888-1977, 2231-2266, for the
    nodes below the root. *)
Fixpoint validate_node (v : validator) (x : node) : validator * report :=
  match x with
  | Text ws keep => let '(v, o) := text_event v ws keep in (v, RText o)
  | Elem n kids =>
    let '(v, accepted) := validate_event v (EName n) in
    let '(v, declared) := start_element v n in
    let '(v, rs) :=
      (fix go (v : validator) (l : list node) : validator * list report :=
        match l with [] => (v, []) | y :: l' => let '(v, r) := validate_node v y in let '(v, rs) := go v l' in (v, r :: rs) end) v kids in
    let '(v, complete) := end_element v in
    (v, RElem accepted declared rs complete)
  end.
Fixpoint validate_nodes (v : validator) (l : list node) : validator * list report :=
  match l with [] => (v, []) | y :: l' => let '(v, r) := validate_node v y in let '(v, rs) := validate_nodes v l' in (v, r :: rs) end.
(** The document: the declarations; the end of the DOCTYPE declaration starts the
    root element type once (expat_EndDoctypeDecl, expat.c:2568); then the root
    element, whose name is compared with the declared one
    (expat.c:1930-1947). *)
Definition validate_document (ds : list (str * spec)) (doctype : str) (root : str) (kids : list node) : result report :=
  do v <- declare_elements new_validator ds ;
  let '(v, _) := start_element v doctype in
  let '(v, declared) := start_element v root in
  let '(v, rs) := validate_nodes v kids in
  let '(v, complete) := end_element v in
  Ok (RElem (str_eqb doctype root) declared rs complete).
End Order.
