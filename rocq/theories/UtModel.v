(** * Model: utilities (lib/lib/util.py)

    element_subtree_iter, unwrap, readbysep and Template. *)
From Coq Require Import NArith ZArith String List Bool.
From Verif Require Import PyStr PyErr DomModel XuModel.
Import ListNotations.
Local Open Scope nat_scope.

(** ** element_subtree_iter *)

Definition OutOfFuel : exn := OtherError 3.
Definition is_element (s : store) (i : nat) : bool :=
  match get s i with Some n => kind_eqb (n_kind n) KElement | None => false end.
(** x.xml_children: only containers have it (container.c:702-717). *)
Definition xml_children (s : store) (i : nat) : result (list nat) :=
  match get s i with
  | None => Err NameError
  | Some n => if is_container (n_kind n) then get_children s i else Err AttributeError
  end.
(** ( ch for ch in e.xml_children if isinstance(ch, tree.element) ) *)
Definition element_children (s : store) (i : nat) : result (list nat) :=
  do l <- xml_children s i ; Ok (filter (is_element s) l).

(** The loop, util.py:27-31; the stack is kept with its top first.  The tree is
    not changed while the iterator runs. *)
Fixpoint push_all (s : store) (it : list nat) (stack : list (list nat)) : result (list (list nat)) :=
  match it with
  | [] => Ok stack
  | e :: it' => do k <- element_children s e ; push_all s it' (k :: stack)
  end.
Fixpoint drain (fuel : nat) (s : store) (stack : list (list nat)) : result (list nat) :=
  match stack with
  | [] => Ok []
  | curr_iter :: stack' =>
    match fuel with
    | O => Err OutOfFuel
    | S f =>
      do stack'' <- push_all s curr_iter stack' ;
      do l <- drain f s stack'' ; Ok (curr_iter ++ l)
    end
  end.
(** element_subtree_iter, util.py:17-32. *)
Definition element_subtree_iter (s : store) (node : nat) (include_root : bool) : result (list nat) :=
  let entity := match get s node with Some n => kind_eqb (n_kind n) KEntity | None => false end in
  do stack <- (if is_element s node || (include_root && entity) then Ok [[node]]
               else do l <- element_children s node ; Ok [l]) ;
  drain (S (S (length (s_nodes s)))) s stack.

(** ** unwrap *)

(** The loop, util.py:101-103. *)
Fixpoint graft (s : store) (parent : nat) (pos : nat) (children : list nat) : call unit :=
  match children with
  | [] => (s, Ok tt)
  | c :: r =>
    match step s (Insert parent (Z.of_nat pos) c) with
    | (s', Ok _) => graft s' parent (S pos) r
    | (s', Err e) => (s', Err e)
    end
  end.
(** unwrap, util.py:83-105; the node must have xml_parent, None has no
    xml_index. *)
Definition unwrap (s : store) (e : nat) : call nat :=
  match xml_children s e with
  | Err x => (s, Err x)
  | Ok children =>
    match parent_of s e with
    | None => (s, Err AttributeError)
    | Some parent =>
      match xml_index s parent e with
      | Err x => (s, Err x)
      | Ok pos =>
        match step s (Remove parent e) with
        | (s1, Err x) => (s1, Err x)
        | (s1, Ok _) =>
          match graft s1 parent pos children with
          | (s2, Ok _) => (s2, Ok parent)
          | (s2, Err x) => (s2, Err x)
          end
        end
      end
    end
  end.

(** ** readbysep *)

(** s.split(sep), for a separator that is not empty: leftmost, not overlapping.
    [skip] characters of a separator just found are still to pass. *)
Fixpoint split_at (sep s : str) (skip : nat) : list str :=
  match s with
  | [] => [[]]
  | c :: r =>
    match skip with
    | S k => split_at sep r k
    | O =>
      if prefixb sep s then [] :: split_at sep r (length sep - 1)
      else match split_at sep r 0 with
           | w :: ws => (c :: w) :: ws
           | [] => [[c]]
           end
    end
  end.
Definition split (sep s : str) : result (list str) :=
  match sep with [] => Err ValueError | _ => Ok (split_at sep s 0) end.

(** readbysep, util.py:305-337.  [reads] is what f.read returns until it returns
    nothing. *)
Fixpoint readbysep_loop (sep leftover : str) (reads : list str) : result (list str) :=
  match reads with
  | [] => Ok [leftover]
  | next :: reads' =>
    match next with
    | [] => Ok [leftover]
    | _ =>
      do chunks <- split sep (leftover ++ next) ;
      do l <- readbysep_loop sep (last chunks []) reads' ;
      Ok (removelast chunks ++ l)
    end
  end.
Definition readbysep (sep : str) (reads : list str) : result (list str) := readbysep_loop sep [] reads.

(** ** Template *)

(** [_a-z] and [_a-z0-9] with IGNORECASE and UNICODE, util.py:384, 392: besides the
    ASCII letters the characters U+0130 and U+212A have a lower case letter among
    a-z. *)
Local Open Scope N_scope.
Definition id_start (c : N) : bool := is_alpha c || (c =? 95) || (c =? 304) || (c =? 8490).
Definition id_char (c : N) : bool := id_start c || is_digit c.
(** What the pattern (util.py:366-373) matches behind a delimiter. *)
Inductive placeholder := PEscaped | PNamed (n : str) | PBraced (n : str) | PInvalid.
Definition placeholder_at (s : str) : placeholder :=
  match s with
  | [] => PInvalid
  | c :: r =>
    if c =? 36 then PEscaped
    else if id_start c then PNamed (c :: fst (span id_char r))
    else if c =? 123 then
      match r with
      | d :: r' =>
        if id_start d then
          match snd (span id_char r') with
          | e :: _ => if e =? 125 then PBraced (d :: fst (span id_char r')) else PInvalid
          | [] => PInvalid
          end
        else PInvalid
      | [] => PInvalid
      end
    else PInvalid
  end.
(** How many characters behind the delimiter belong to the match. *)
Definition width (p : placeholder) : nat :=
  match p with PEscaped => 1 | PNamed n => length n | PBraced n => length n + 2 | PInvalid => 0 end.

(** pattern.sub(convert, template): matches from the left, not overlapping.  [skip]
    characters of a match are still to pass. *)
Fixpoint sub (convert : placeholder -> result str) (s : str) (skip : nat) : result str :=
  match s with
  | [] => Ok []
  | c :: r =>
    match skip with
    | S k => sub convert r k
    | O =>
      if c =? 36 then
        do v <- convert (placeholder_at r) ;
        do w <- sub convert r (width (placeholder_at r)) ; Ok (v ++ w)
      else do w <- sub convert r 0 ; Ok (c :: w)
    end
  end.

Section Template.
  (** The mapping; its values are unicode (util.py:426 decodes others). *)
  Variable mapping : str -> option str.

  (** convert of substitute, util.py:421-435, with _invalid, 399-409. *)
  Definition convert (p : placeholder) : result str :=
    match p with
    | PNamed n | PBraced n => match mapping n with Some v => Ok v | None => Err KeyError end
    | PEscaped => Ok [36]
    | PInvalid => Err ValueError
    end.
  (** substitute, util.py:411-436. *)
  Definition substitute (template : str) : result str := sub convert template 0.

  (** convert of safe_substitute, util.py:448-468. *)
  Definition safe_convert (p : placeholder) : result str :=
    match p with
    | PNamed n => match mapping n with Some v => Ok v | None => Ok (36 :: n) end
    | PBraced n => match mapping n with Some v => Ok v | None => Ok ([36; 123] ++ n ++ [125]) end
    | PEscaped => Ok [36]
    | PInvalid => Ok [36]
    end.
  (** safe_substitute, util.py:438-469. *)
  Definition safe_substitute (template : str) : result str := sub safe_convert template 0.
End Template.
(** The mapping of the arguments: keywords come first, util.py:354-362, 414-419. *)
Definition multimap (primary secondary : str -> option str) (k : str) : option str :=
  match primary k with Some v => Some v | None => secondary k end.
