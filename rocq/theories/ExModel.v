(** * Model of the EXSLT functions on node-sets and strings

    /repo/lib/xslt/exslt/sets.py, math.py and strings.py.  Arguments are already
    evaluated.  A node is its position in document order; a node-set is a Python
    list of nodes. *)
From Coq Require Import NArith ZArith QArith String List Bool Lia Arith.
From Verif Require Import PyStr PyErr XsModel SerModel XwModel XcModel TwModel XpNum XpFuncs.
Import ListNotations.
Open Scope N_scope.

Definition OverflowError : exn := OtherError 6.

(** ** Node-sets *)
(** datatypes.nodeset(sequence): a new list, sorted
    (/repo/lib/xpath/src/datatypes.c:1315-1346); nodes compare in document order. *)
Fixpoint insert_node (x : nat) (l : list nat) : list nat :=
  match l with [] => [x] | y :: l' => if Nat.leb x y then x :: l else y :: insert_node x l' end.
Definition nodeset_of (l : list nat) : list nat := fold_right insert_node [] l.
Definition has (x : nat) (l : list nat) : bool := existsb (Nat.eqb x) l.
Section Sets.
  (** The order in which Python lists the elements of a set, the values of a
      dictionary. *)
  Variable order : list nat -> list nat.
  (** set(nodeset) *)
  Definition set_of (n : list nat) : list nat := nodup Nat.eq_dec n.
  (** sets.py:12-20, 55-62. *)
  Definition set_difference (n1 n2 : list nat) : list nat := nodeset_of (order (filter (fun x => negb (has x n2)) (set_of n1))).
  Definition set_intersection (n1 n2 : list nat) : list nat := nodeset_of (order (filter (fun x => has x n2) (set_of n1))).
  (** sets.py:39-52. *)
  Definition set_has_same_node (n1 n2 : list nat) : bool := existsb (fun x => has x n2) n1.
  (** dict(izip(strings, nodeset)): the last entry of a key counts. *)
  Fixpoint dict_set (d : list (str * nat)) (k : str) (v : nat) : list (str * nat) :=
    match d with [] => [(k, v)] | (k', v') :: d' => if str_eqb k' k then (k, v) :: d' else (k', v') :: dict_set d' k v end.
  Definition dict_of (l : list (str * nat)) : list (str * nat) := fold_left (fun d e => dict_set d (fst e) (snd e)) l [].
  (** sets.py:23-36.  [string] is the string value of a node.  nodeset.reverse()
      changes the list itself: the second component is the argument afterwards,
      which is the value of the variable if the argument was one (datatypes.nodeset
      returns a node-set as it is, datatypes.c:1326-1329). *)
  Definition set_distinct (string : nat -> str) (n : list nat) : list nat * list nat :=
    let n := rev n in
    (nodeset_of (order (map snd (dict_of (map (fun x => (string x, x)) n)))), n).
End Sets.
(** sets.py:65-84, 87-108: the name nodeset is not defined; it is looked up first. *)
Definition set_leading (n1 n2 : list nat) : result (list nat) := Err NameError.
Definition set_trailing (n1 n2 : list nat) : result (list nat) := Err NameError.

(** ** Numbers *)
Definition isnan (n : num) : bool := negb (num_eqb n n).
(** math.py:157-174 and 177-194; [better] is > or <.  The nodes are given by
    their string values; they are converted one by one. *)
Fixpoint best_loop (better : num -> num -> bool) (best : num) (l : list str) : result num :=
  match l with
  | [] => Ok best
  | s :: l' =>
    do n <- from_string s ;
    if better n best then best_loop better n l' else if isnan n then Ok n else best_loop better best l'
  end.
Definition best_function (better : num -> num -> bool) (l : list str) : result num :=
  match l with [] => Ok NNaN | s :: l' => do n <- from_string s ; best_loop better n l' end.
Definition max_function : list str -> result num := best_function (fun a b => num_ltb b a).
Definition min_function : list str -> result num := best_function num_ltb.
(** max(nodeset, key=datatypes.number): the key of the node found.  The code keeps
    the node; comparing a number to a node converts the node to a number
    (/repo/lib/xpath/src/datatypes.c:472-478, 998-1004). *)
Definition best_key (better : num -> num -> bool) (l : list num) : result num :=
  match l with [] => Err ValueError | n :: l' => Ok (fold_left (fun best n => if better n best then n else best) l' n) end.
(** math.py:111-127 and 138-154; [string] is the string value of a node. *)
Fixpoint numbers_of_nodes (string : nat -> str) (l : list nat) : result (list (nat * num)) :=
  match l with [] => Ok [] | x :: l' => do n <- from_string (string x) ; do m <- numbers_of_nodes string l' ; Ok ((x, n) :: m) end.
Definition best_nodes (better : num -> num -> bool) (string : nat -> str) (l : list nat) : result (list nat) :=
  do ns <- numbers_of_nodes string l ;
  do best <- best_key better (map snd ns) ;
  Ok (map fst (filter (fun e => num_eqb (snd e) best) ns)).
Definition highest_function : (nat -> str) -> list nat -> result (list nat) := best_nodes (fun a b => num_ltb b a).
Definition lowest_function : (nat -> str) -> list nat -> result (list nat) := best_nodes num_ltb.
(** math.py:222-244: the name n is not defined. *)
Definition sqrt_function (n : num) : result num := if isnan n then Ok n else Err NameError.
(** math.py:81-91: the name nam is not defined. *)
Definition constant_function (name : str) (precision : num) : result num := Err NameError.

(** ** Strings *)
(** strings.py:16-45; [alignment] is None when not given.  l[:-n] with n = 0 is
    empty. *)
Definition slice_before_end (s : str) (n : nat) : str :=
  match n with 0%nat => [] | _ => firstn (List.length s - n) s end.
Definition align_function (target padding : str) (alignment : option str) : str :=
  let t := List.length target in
  let p := List.length padding in
  let is name := match alignment with Some a => str_eqb a (lit name) | None => false end in
  if Nat.ltb p t then firstn p target
  else if is "right"%string then slice_before_end padding t ++ target
  else if is "center"%string then
    let left := Nat.div (p - t) 2 in
    firstn left padding ++ target ++ skipn (left + t) padding
  else target ++ skipn t padding.
(** int(number) *)
Definition py_int (n : num) : result Z :=
  match n with
  | NNaN => Err ValueError
  | NPosInf | NNegInf => Err OverflowError
  | NNegZero => Ok 0%Z
  | NFin q => Ok (Qtrunc q)
  end.
(** strings.py:137-149: (chars*length)[:length]; s*n is empty for n <= 0. *)
Definition padding_function (length : num) (chars : option str) : result str :=
  do n <- py_int length ;
  let chars := match chars with Some c => c | None => [32] end in
  Ok (firstn (Z.to_nat n) (List.concat (repeat chars (Z.to_nat n)))).

(** string.split(sep), sep not empty: [skip] characters of a separator are left. *)
Fixpoint split_loop (sep acc : str) (skip : nat) (s : str) : list str :=
  match s with
  | [] => [rev acc]
  | c :: r =>
    match skip with
    | S k => split_loop sep acc k r
    | O => if prefixb sep s then rev acc :: split_loop sep [] (List.length sep - 1) r else split_loop sep (c :: acc) 0 r
    end
  end.
Definition py_split_sep (sep s : str) : list str := split_loop sep [] 0 s.
(** The calls for the tokens, and the children of the fragment: strings.py:249-260, 282-290. *)
Definition token_calls (tokens : list str) : list call :=
  flat_map (fun t => [StartElement (lit "token") None [] []; Text t; EndElement (lit "token")]) tokens.
(** strings.py:237-260. *)
Definition split_tokens (s : str) (pattern : option str) : list str :=
  match (match pattern with Some p => p | None => [32] end) with
  | [] => map (fun c => [c]) s
  | p => py_split_sep p s
  end.
Definition split_function (s : str) (pattern : option str) : result (list node) := fragment (token_calls (split_tokens s pattern)).
(** strings.py:263-290: re.split with a class of characters. *)
Fixpoint split_class (delims acc : str) (s : str) : list str :=
  match s with
  | [] => [rev acc]
  | c :: r => if mem c delims then rev acc :: split_class delims [] r else split_class delims (c :: acc) r
  end.
Definition tokenize_tokens (s : str) (delimiters : option str) : list str :=
  match (match delimiters with Some d => d | None => [9; 10; 13; 32] end) with
  | [] => map (fun c => [c]) s
  | d => split_class d [] s
  end.
Definition tokenize_function (s : str) (delimiters : option str) : result (list node) := fragment (token_calls (tokenize_tokens s delimiters)).

(** strings.py:152-178 _replace: the calls on the writer.  [replacements] are
    search strings with the calls that copy the replacement, if there is one. *)
Fixpoint replace_calls (replacements : list (str * option (list call))) (s : str) : list call :=
  match replacements with
  | [] => [Text s]
  | (search, replace) :: rest =>
    let segments := match search with [] => map (fun c => [c]) s | _ => py_split_sep search s end in
    (fix go (segs : list str) : list call :=
       match segs with
       | [] => []
       | seg :: segs' =>
         (match seg with [] => [] | _ => replace_calls rest seg end) ++
         (match segs', replace with _ :: _, Some r => r | _, _ => [] end) ++
         go segs'
       end) segments
  end.
(** sort(key=len, reverse=True): stable. *)
Fixpoint insert_longest {R} (x : str * R) (l : list (str * R)) : list (str * R) :=
  match l with
  | [] => [x]
  | y :: l' => if Nat.leb (List.length (fst y)) (List.length (fst x)) then x :: l else y :: insert_longest x l'
  end.
Definition longest_first {R} (l : list (str * R)) : list (str * R) := fold_right insert_longest [] l.
(** zip(search, chain(replace, repeat(None))) *)
Fixpoint pair_up {R} (search : list str) (replace : list R) : list (str * option R) :=
  match search, replace with
  | [], _ => []
  | s :: search', [] => (s, None) :: pair_up search' []
  | s :: search', r :: replace' => (s, Some r) :: pair_up search' replace'
  end.
(** strings.py:180-234.  [search]: the string values; [replace]: the calls that
    copy the nodes (those of attributes and namespaces are [Text ""]). *)
Definition replace_function (s : str) (search : list str) (replace : list (list call)) : result (list node) :=
  fragment (replace_calls (longest_first (pair_up search replace)) s).

(** ** URIs *)
(** strings.py:59-81 and 94-134: the module does not import codecs; NameError is
    not the LookupError that is caught (67-70, 106-109). *)
Definition decode_uri_function (uri : str) (encoding : option str) : result str := Err NameError.
Definition encode_uri_function (uri : str) (escape_reserved : bool) (encoding : option str) : result str := Err NameError.
