(** * Model of xml_compare and check_xml, /repo/lib/lib/treecompare.py

    Expat is the environment: a document is what Expat reports for it.
    difflib.unified_diff yields a line iff the two lists differ; it is modelled by
    the comparison of the lists.  The HTML functions, which rest on HTMLParser,
    are not modelled. *)
From Coq Require Import NArith String List Bool Lia Arith.
From Verif Require Import PyStr PyErr SerModel.
Import ListNotations.
Open Scope N_scope.

(** ** Python built-ins *)

(** [repr] of a unicode string on a wide build: quoted with ', or with the double
    quote if only ' occurs. *)
Definition hexd (n : N) : N := if n <? 10 then 48 + n else 87 + n.
Fixpoint hexw (w : nat) (n : N) : str :=
  match w with
  | O => []
  | S w' => hexw w' (n / 16) ++ [hexd (n mod 16)]
  end.
Definition repr_char (q c : N) : str :=
  if (c =? 92) || (c =? q) then [92; c]
  else if c =? 9 then [92; 116]
  else if c =? 10 then [92; 110]
  else if c =? 13 then [92; 114]
  else if 65536 <=? c then 92 :: 85 :: hexw 8 c
  else if 256 <=? c then 92 :: 117 :: hexw 4 c
  else if (c <? 32) || (127 <=? c) then 92 :: 120 :: hexw 2 c
  else [c].
Definition repr_quote (s : str) : N := if mem 39 s && negb (mem 34 s) then 34 else 39.
Definition repr (s : str) : str := 117 :: repr_quote s :: flat_map (repr_char (repr_quote s)) s ++ [repr_quote s].
Definition repr_opt (s : option str) : str := match s with Some x => repr x | None => lit "None" end.
(** '%s' of a string or None. *)
Definition show (s : option str) : str := match s with Some x => x | None => lit "None" end.

(** The order of pairs (string or None, string); None is less than any string. *)
Definition opt_leb (a b : option str) : bool :=
  match a, b with
  | None, _ => true
  | Some _, None => false
  | Some x, Some y => str_leb x y
  end.
Definition opt_eqb (a b : option str) : bool :=
  match a, b with
  | None, None => true
  | Some x, Some y => str_eqb x y
  | _, _ => false
  end.
Definition pair_leb (a b : option str * str) : bool :=
  if opt_eqb (fst a) (fst b) then str_leb (snd a) (snd b) else opt_leb (fst a) (fst b).
Fixpoint insert_pair (a : option str * str) (l : list (option str * str)) : list (option str * str) :=
  match l with
  | [] => [a]
  | b :: l' => if pair_leb a b then a :: l else b :: insert_pair a l'
  end.
(** [sorted(l)] *)
Definition sorted_pairs (l : list (option str * str)) : list (option str * str) := fold_right insert_pair [] l.

(** xmlstring.isspace, /repo/lib/src/xmlstring.c:113-127 and 675-695, for a string that is not empty. *)
Definition isspace (s : str) : bool := forallb (fun c => (c =? 32) || (c =? 9) || (c =? 10) || (c =? 13)) s.

(** ** The handlers of _xml_sequence, treecompare.py:206-223 *)

(** A call of Expat.  Element and attribute names come as uri#local; the
    attributes as a list of names and values in turn (ordered_attributes). *)
Inductive event :=
| ENs (prefix : option str) (uri : str)
| EStart (name : str) (attrs : list str)
| EEnd (name : str)
| EChars (data : str)
| EPI (target data : str)
| EEntity (name : str)
| EComment (data : str)
| EStartCdata
| EEndCdata
| EDoctype (name : str) (sysid pubid : option str) (subset : bool).

(** The list, _data and _nsdecls, 126-133. *)
Record seq := { q_out : list str; q_data : str; q_ns : list (option str * str) }.
Definition seq0 : seq := {| q_out := []; q_data := []; q_ns := [] |}.

Section Sequence.
  (** [whitespace]: the argument of the comparison. *)
  Variable whitespace : bool.
  (** _flush and _flush_whitespace, 138-149. *)
  Definition flush (s : seq) : seq :=
    match q_data s with
    | [] => s
    | d =>
      {| q_out := if negb whitespace && isspace d then q_out s else q_out s ++ [lit "#text: " ++ repr d];
         q_data := []; q_ns := q_ns s |}
    end.
  Definition append (x : str) (s : seq) : seq := {| q_out := q_out s ++ [x]; q_data := q_data s; q_ns := q_ns s |}.
  (** itertools.izip(it, it), 228-230. *)
  Fixpoint pairs (l : list str) : list (option str * str) :=
    match l with
    | n :: v :: l' => (Some n, v) :: pairs l'
    | _ => []
    end.
  (** [', '.join('%s=%r' % pair for pair in l)], 161-162 and 166-167. *)
  Definition show_pairs (l : list (option str * str)) : str :=
    join (lit ", ") (map (fun p => show (fst p) ++ lit "=" ++ repr (snd p)) l).
  (** start_element, 156-168. *)
  Definition start_element (name : str) (attrs : list str) (s : seq) : seq :=
    let s1 := append (lit "start-tag: " ++ name) (flush s) in
    let s2 := match q_ns s1 with
              | [] => s1
              | _ => {| q_out := q_out s1 ++ [lit "  namespaces: " ++ show_pairs (sorted_pairs (q_ns s1))];
                        q_data := q_data s1; q_ns := [] |}
              end in
    match attrs with
    | [] => s2
    | _ => append (lit "  attributes: " ++ show_pairs (sorted_pairs (pairs attrs))) s2
    end.
  (** The handlers, 151-203. *)
  Definition handle (e : event) (s : seq) : seq :=
    match e with
    | ENs p u => {| q_out := q_out s; q_data := q_data s; q_ns := q_ns s ++ [(p, u)] |}
    | EStart n a => start_element n a s
    | EEnd n => append (lit "end-tag: " ++ n) (flush s)
    | EChars d => {| q_out := q_out s; q_data := q_data s ++ d; q_ns := q_ns s |}
    | EPI t d => append (lit "processing-instruction: target=" ++ t ++ lit ", data=" ++ repr d) (flush s)
    | EEntity n => append (lit "entity-ref: name=" ++ n) (flush s)
    | EComment d => append (lit "#comment: " ++ repr d) (flush s)
    | EStartCdata => append (lit "start-cdata") (flush s)
    | EEndCdata => append (lit "end-cdata") (flush s)
    | EDoctype n sy pu b =>
      append (lit "doctype-decl: name=" ++ n ++ lit ", sysid=" ++ repr_opt sy ++ lit ", pubid=" ++ repr_opt pu ++
              lit ", subset=" ++ (if b then lit "yes" else lit "no")) (flush s)
    end.
  (** __init__, 128-136, after Expat has been fed. *)
  Definition sequence (l : list event) : list str := q_out (flush (fold_left (fun s e => handle e s) l seq0)).
End Sequence.

(** ** The comparison *)

(** A string to be compared: whether xml_diff takes it for an external parsed
    entity (109-115: it has a text declaration and no document type before the
    first start tag); what Expat reports for it as a document and as an entity,
    or its error. *)
Record source := { s_entity : bool; s_document : result (list event); s_fragment : result (list event) }.
(** _xml_sequence and _entity_sequence, 206-245.  _xml_sequence has __slots__ and
    no __dict__, so that _flush cannot be set (131); _entity_sequence has one. *)
Definition sequencer (entity whitespace : bool) (x : source) : result (list str) :=
  if entity then rmap (sequence whitespace) (s_fragment x)
  else if whitespace then rmap (sequence true) (s_document x)
  else Err AttributeError.
Fixpoint lines_eqb (a b : list str) : bool :=
  match a, b with
  | [], [] => true
  | x :: a', y :: b' => str_eqb x y && lines_eqb a' b'
  | _, _ => false
  end.
(** xml_compare and xml_diff, 93-119: the first argument decides which it is. *)
Definition xml_compare (expected compared : source) (whitespace : bool) : result bool :=
  do a <- sequencer (s_entity expected) whitespace expected ;
  do b <- sequencer (s_entity expected) whitespace compared ;
  Ok (lines_eqb a b).
(** check_xml(result, expected), 43-49. *)
Definition check_xml (res expected : source) : result unit :=
  do same <- xml_compare res expected true ;
  if same then Ok tt else Err AssertionError.
