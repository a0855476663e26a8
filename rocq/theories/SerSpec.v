(** * Reference XML reader, written from the W3C recommendations
      (XML 1.0 fifth edition, Namespaces in XML 1.0), not from /repo.

    It reads one external parsed entity: end-of-line handling (2.11),
    references (4.1, predefined entities only), CDATA sections (2.7),
    comments (2.5), processing instructions (2.6), start, end and empty-element
    tags (3.1) with attribute-value normalization (3.3.3, CDATA type), document
    type declarations without internal subset (2.8), element nesting and
    attribute uniqueness (3.1).  Then names are resolved (Namespaces in XML).
    No DTD is read, so no other entities and no attribute defaults exist. *)
From Coq Require Import NArith String List Bool Lia Arith Permutation.
From Verif Require Import PyStr.
Import ListNotations.
Open Scope N_scope.

Definition between (a b c : N) : bool := (a <=? c) && (c <=? b).

(** Char, production [2]. *)
Definition xml_char (c : N) : bool :=
  (c =? 9) || (c =? 10) || (c =? 13) || between 32 55295 c || between 57344 65533 c || between 65536 1114111 c.
(** S, production [3]. *)
Definition ws (c : N) : bool := (c =? 32) || (c =? 9) || (c =? 10) || (c =? 13).
(** NameStartChar and NameChar, productions [4] and [4a]. *)
Definition name_start (c : N) : bool :=
  (c =? 58) || between 65 90 c || (c =? 95) || between 97 122 c || between 192 214 c || between 216 246 c
  || between 248 767 c || between 880 893 c || between 895 8191 c || between 8204 8205 c || between 8304 8591 c
  || between 11264 12271 c || between 12289 55295 c || between 63744 64975 c || between 65008 65533 c
  || between 65536 983039 c.
Definition name_char (c : N) : bool :=
  name_start c || (c =? 45) || (c =? 46) || between 48 57 c || (c =? 183) || between 768 879 c || between 8255 8256 c.
(** Name, production [5]. *)
Definition is_name (s : str) : bool :=
  match s with [] => false | c :: s' => name_start c && forallb name_char s' end.

(** End-of-line handling, section 2.11. *)
Fixpoint norm_eol (s : str) : str :=
  match s with
  | [] => []
  | c :: s' =>
    if c =? 13 then
      10 :: match s' with
            | d :: s'' => if d =? 10 then norm_eol s'' else norm_eol s'
            | [] => []
            end
    else c :: norm_eol s'
  end.

(** Numbers in character references, production [66]. *)
Definition digit_val (hex : bool) (c : N) : option N :=
  if between 48 57 c then Some (c - 48)
  else if hex && between 65 70 c then Some (c - 55)
  else if hex && between 97 102 c then Some (c - 87)
  else None.
Fixpoint number (base : N) (hex : bool) (acc : N) (s : str) : option N :=
  match s with
  | [] => Some acc
  | c :: s' => match digit_val hex c with Some d => number base hex (acc * base + d) s' | None => None end
  end.
(** The replacement of the reference [&name;], section 4.1 and 4.6. *)
Definition resolve_ref (name : str) : option N :=
  let num base hex s :=
    match s with
    | [] => None
    | _ => match number base hex 0 s with
           | Some c => if xml_char c then Some c else None
           | None => None
           end
    end in
  if str_eqb name (lit "lt") then Some 60
  else if str_eqb name (lit "gt") then Some 62
  else if str_eqb name (lit "amp") then Some 38
  else if str_eqb name (lit "quot") then Some 34
  else if str_eqb name (lit "apos") then Some 39
  else if prefixb (lit "#x") name then num 16 true (skipn 2 name)
  else if prefixb (lit "#") name then num 10 false (skipn 1 name)
  else None.

(** Replace the references of a piece of character data or of an attribute
    literal; [f] is applied to the characters that are there literally.
    [ref] is the (reversed) text since a '&'. *)
Fixpoint expand (f : N -> N) (ref : option str) (s : str) : option str :=
  match s, ref with
  | [], None => Some []
  | [], Some _ => None
  | c :: s', None =>
    if c =? 38 then expand f (Some []) s'
    else if c =? 60 then None
    else if xml_char c then option_map (cons (f c)) (expand f None s')
    else None
  | c :: s', Some nm =>
    if c =? 59 then
      match resolve_ref (rev nm) with
      | Some x => option_map (cons x) (expand f None s')
      | None => None
      end
    else expand f (Some (c :: nm)) s'
  end.

(** The text before and after the first occurrence of [pat]. *)
Fixpoint break_sub (pat s : str) : option (str * str) :=
  if prefixb pat s then Some ([], skipn (length pat) s)
  else match s with
       | [] => None
       | c :: s' => match break_sub pat s' with Some (a, b) => Some (c :: a, b) | None => None end
       end.

(** Character data between markup: references replaced, no ']]>' (2.4). *)
Definition read_chardata (run : str) : option str :=
  match break_sub (lit "]]>") run with
  | Some _ => None
  | None => expand (fun c => c) None run
  end.

(** Attribute-value normalization (3.3.3): literal white space becomes a space. *)
Definition attr_norm (c : N) : N := if ws c then 32 else c.
Definition read_attvalue (literal : str) : option str := expand attr_norm None literal.

Definition read_name (s : str) : option (str * str) :=
  let (n, r) := span name_char s in if is_name n then Some (n, r) else None.
Definition skip_ws (s : str) : str := snd (span ws s).

(** A quoted literal and what follows it. *)
Definition read_literal (s : str) : option (str * str) :=
  match s with
  | q :: r => if (q =? 34) || (q =? 39) then break1 q r else None
  | [] => None
  end.

(** The attributes of a tag up to '>' or '/>'; the boolean tells '/>'. *)
Fixpoint read_attrs (fuel : nat) (s : str) : option (list (str * str) * bool * str) :=
  match fuel with
  | O => None
  | S fuel' =>
    let (w, s1) := span ws s in
    if prefixb (lit ">") s1 then Some ([], false, skipn 1 s1)
    else if prefixb (lit "/>") s1 then Some ([], true, skipn 2 s1)
    else
      match w with
      | [] => None
      | _ =>
        match read_name s1 with
        | None => None
        | Some (n, s2) =>
          match skip_ws s2 with
          | 61 :: s3 =>
            match read_literal (skip_ws s3) with
            | None => None
            | Some (l, s4) =>
              match read_attvalue l, read_attrs fuel' s4 with
              | Some v, Some (atts, e, r) => Some ((n, v) :: atts, e, r)
              | _, _ => None
              end
            end
          | _ => None
          end
        end
      end
  end.

Fixpoint nodup_names (l : list str) : bool :=
  match l with
  | [] => true
  | n :: l' => negb (existsb (str_eqb n) l') && nodup_names l'
  end.

Inductive token :=
| TStart (name : str) (atts : list (str * str))
| TEnd (name : str)
| TText (s : str)
| TComment (s : str)
| TPI (target data : str)
| TDoctype (name : str) (public system : option str).

(** White space required by the grammar, and what follows it. *)
Definition need_ws (s : str) : option str :=
  match span ws s with ([], _) => None | (_, r) => Some r end.

(** PubidChar, production [13]. *)
Definition pubid_char (c : N) : bool :=
  (c =? 32) || (c =? 13) || (c =? 10) || between 97 122 c || between 65 90 c || between 48 57 c
  || existsb (N.eqb c) (lit "-'()+,./:=?;!*#@$_%").

(** Document type declaration after '<!DOCTYPE', production [28] with [75]. *)
Definition read_doctype (s : str) : option (list token * str) :=
  match need_ws s with
  | None => None
  | Some s1 =>
    match read_name s1 with
    | None => None
    | Some (n, s2) =>
      match need_ws s2 with
      | None => None
      | Some s3 =>
        if prefixb (lit "SYSTEM") s3 then
          match need_ws (skipn 6 s3) with
          | None => None
          | Some s4 =>
            match read_literal s4 with
            | None => None
            | Some (sys, s5) =>
              match skip_ws s5 with
              | 62 :: r => if forallb xml_char sys then Some ([TDoctype n None (Some sys)], r) else None
              | _ => None
              end
            end
          end
        else if prefixb (lit "PUBLIC") s3 then
          match need_ws (skipn 6 s3) with
          | None => None
          | Some s4 =>
            match read_literal s4 with
            | None => None
            | Some (pub, s5) =>
              match need_ws s5 with
              | None => None
              | Some s6 =>
                match read_literal s6 with
                | None => None
                | Some (sys, s7) =>
                  match skip_ws s7 with
                  | 62 :: r => if forallb pubid_char pub && forallb xml_char sys then Some ([TDoctype n (Some pub) (Some sys)], r) else None
                  | _ => None
                  end
                end
              end
            end
          end
        else None
      end
    end
  end.

(** One piece of markup, after its '<'. *)
Definition read_markup (s : str) : option (list token * str) :=
  if prefixb (lit "!--") s then
    match break_sub (lit "--") (skipn 3 s) with
    | Some (d, 62 :: r) => if forallb xml_char d then Some ([TComment d], r) else None
    | _ => None
    end
  else if prefixb (lit "![CDATA[") s then
    match break_sub (lit "]]>") (skipn 8 s) with
    | Some (d, r) => if forallb xml_char d then Some ([TText d], r) else None
    | None => None
    end
  else if prefixb (lit "!DOCTYPE") s then read_doctype (skipn 8 s)
  else if prefixb (lit "?") s then
    match read_name (skipn 1 s) with
    | Some (t, s1) =>
      if str_eqb (lower t) (lit "xml") then None
      else if prefixb (lit "?>") s1 then Some ([TPI t []], skipn 2 s1)
      else match need_ws s1 with
           | None => None
           | Some s2 =>
             match break_sub (lit "?>") s2 with
             | Some (d, r) => if forallb xml_char d then Some ([TPI t d], r) else None
             | None => None
             end
           end
    | None => None
    end
  else if prefixb (lit "/") s then
    match read_name (skipn 1 s) with
    | Some (n, s1) => match skip_ws s1 with 62 :: r => Some ([TEnd n], r) | _ => None end
    | None => None
    end
  else
    match read_name s with
    | Some (n, s1) =>
      match read_attrs (S (length s1)) s1 with
      | Some (atts, e, r) =>
        if nodup_names (map fst atts)
        then Some (if e then [TStart n atts; TEnd n] else [TStart n atts], r)
        else None
      | None => None
      end
    | None => None
    end.

(** Tokens of an entity. *)
Fixpoint lex (fuel : nat) (s : str) : option (list token) :=
  match fuel with
  | O => None
  | S fuel' =>
    let (run, s1) := span (fun c => negb (c =? 60)) s in
    match read_chardata run with
    | None => None
    | Some t =>
      match s1 with
      | [] => Some [TText t]
      | _ :: s2 =>
        match read_markup s2 with
        | Some (toks, r) =>
          match lex fuel' r with
          | Some rest => Some (TText t :: toks ++ rest)
          | None => None
          end
        | None => None
        end
      end
    end
  end.

(** Trees of qualified names. *)
Inductive rnode :=
| RElem (name : str) (atts : list (str * str)) (kids : list rnode)
| RText (s : str)
| RComment (s : str)
| RPI (target data : str)
| RDoctype (name : str) (public system : option str).

(** Add character data before a sequence of nodes: adjacent character data is
    one text node, empty character data is none. *)
Definition add_text (t : str) (l : list rnode) : list rnode :=
  match t, l with
  | [], _ => l
  | _, RText u :: l' => RText (t ++ u) :: l'
  | _, _ => RText t :: l
  end.

(** Content up to an end tag (returned with what follows it) or, at the top
    ([top]), up to the end of the entity.  Structural recursion on the fuel. *)
Fixpoint build (fuel : nat) (top : bool) (toks : list token) : option (list rnode * option str * list token) :=
  match fuel with
  | O => None
  | S fuel' =>
    let cons_then n rest :=
      match build fuel' top rest with
      | Some (l, e, r) => Some (n :: l, e, r)
      | None => None
      end in
    match toks with
    | [] => if top then Some ([], None, []) else None
    | TText t :: rest =>
      match build fuel' top rest with
      | Some (l, e, r) => Some (add_text t l, e, r)
      | None => None
      end
    | TComment d :: rest => cons_then (RComment d) rest
    | TPI t d :: rest => cons_then (RPI t d) rest
    | TDoctype n p s :: rest => if top then cons_then (RDoctype n p s) rest else None
    | TEnd n :: rest => if top then None else Some ([], Some n, rest)
    | TStart n atts :: rest =>
      match build fuel' false rest with
      | Some (kids, Some m, rest') => if str_eqb n m then cons_then (RElem n atts kids) rest' else None
      | _ => None
      end
    end
  end.

(** The same sequence of nodes as a reader can report it: adjacent character
    data is one text node, empty character data is none. *)
Fixpoint merge (n : rnode) (rest : list rnode) : list rnode :=
  match n with
  | RText s => add_text s rest
  | RElem q a k => RElem q a (fold_right merge [] k) :: rest
  | _ => n :: rest
  end.
Definition merge_all (l : list rnode) : list rnode := fold_right merge [] l.

(** What the grammar allows in a document (XML 1.0, productions [14], [15],
    [16], [17], [10], [40]): no '--' in or '-' at the end of a comment, no '?>'
    in the data of a processing instruction and a target other than xml, names
    that are Names, distinct attribute names.  Comments and processing
    instructions have no escape for the carriage return (2.11). *)
Fixpoint contains (pat s : str) : bool :=
  prefixb pat s || match s with [] => false | _ :: s' => contains pat s' end.
Definition chars (s : str) : Prop := Forall (fun c => xml_char c = true) s.
Definition legal_comment (d : str) : Prop := chars d /\ ~ In 13 d /\ contains (lit "--") (d ++ lit "-") = false.
Definition legal_pi (t d : str) : Prop :=
  is_name t = true /\ lower t <> lit "xml" /\ chars d /\ ~ In 13 d /\ contains (lit "?>") d = false /\
  match d with [] => True | c :: _ => ws c = false end.
Definition legal_atts (l : list (str * str)) : Prop :=
  Forall (fun a => is_name (fst a) = true /\ chars (snd a)) l /\ NoDup (map fst l).
Inductive legal : rnode -> Prop :=
| legal_RText : forall s, chars s -> legal (RText s)
| legal_RComment : forall d, legal_comment d -> legal (RComment d)
| legal_RPI : forall t d, legal_pi t d -> legal (RPI t d)
| legal_RElem : forall q a k, is_name q = true -> legal_atts a -> Forall legal k -> legal (RElem q a k).

(** Read the content of an entity. *)
Definition read_content (s : str) : option (list rnode) :=
  let s' := norm_eol s in
  match lex (S (length s')) s' with
  | Some toks =>
    match build (S (length toks)) true toks with
    | Some (l, _, _) => Some l
    | None => None
    end
  | None => None
  end.

(** The XML declaration, production [23] without a standalone declaration:
    version number, encoding name, and what follows. *)
Definition read_pseudo (name s : str) : option (str * str) :=
  match need_ws s with
  | Some s1 =>
    if prefixb (name ++ lit "=") s1 then read_literal (skipn (S (length name)) s1) else None
  | None => None
  end.
Definition read_decl (s : str) : option (option (str * str) * str) :=
  if prefixb (lit "<?xml ") s then
    match read_pseudo (lit "version") (skipn 5 s) with
    | Some (v, s1) =>
      match read_pseudo (lit "encoding") s1 with
      | Some (e, s2) =>
        if prefixb (lit "?>") (skip_ws s2) then Some (Some (v, e), skipn 2 (skip_ws s2)) else None
      | None => None
      end
    | None => None
    end
  else Some (None, s).

Definition is_ws_text (n : rnode) : bool := match n with RText s => forallb ws s | _ => false end.
Definition is_elem (n : rnode) : bool := match n with RElem _ _ _ => true | _ => false end.
Definition is_doctype (n : rnode) : bool := match n with RDoctype _ _ _ => true | _ => false end.
Definition is_rtext (n : rnode) : bool := match n with RText _ => true | _ => false end.

(** What follows the first element. *)
Fixpoint after_elem (l : list rnode) : list rnode :=
  match l with [] => [] | n :: l' => if is_elem n then l' else after_elem l' end.

(** A document: prolog, one element, no character data outside it but white
    space, at most one document type declaration, before the element
    (productions [1] and [22]). *)
Definition read_document (s : str) : option (option (str * str) * list rnode) :=
  match read_decl s with
  | None => None
  | Some (decl, s1) =>
    match read_content s1 with
    | None => None
    | Some l0 =>
      let l := filter (fun n => negb (is_ws_text n)) l0 in
      if existsb is_rtext l then None
      else if negb (Nat.eqb (length (filter is_elem l)) 1) then None
      else if Nat.ltb 1 (length (filter is_doctype l)) then None
      else if existsb is_doctype (after_elem l) then None
      else Some (decl, l)
    end
  end.

(** ** Namespaces *)

(** Trees of expanded names (namespace name or none, local part). *)
Inductive xnode :=
| XElem (ns : option str) (local : str) (atts : list ((option str * str) * str)) (kids : list xnode)
| XText (s : str)
| XComment (s : str)
| XPI (target data : str).

Definition xml_uri : str := lit "http://www.w3.org/XML/1998/namespace".
Definition xmlns_uri : str := lit "http://www.w3.org/2000/xmlns/".

(** The namespace bound to a prefix ([None]: the default namespace); [None]
    as result: not bound. *)
Definition scope := option str -> option str.
Definition scope0 : scope := fun p => match p with Some p => if str_eqb p (lit "xml") then Some xml_uri else None | None => None end.
Definition bind_scope (sc : scope) (p : option str) (v : option str) : scope :=
  fun q => match p, q with
           | None, None => v
           | Some a, Some b => if str_eqb a b then v else sc q
           | _, _ => sc q
           end.

(** A namespace declaration attribute: the prefix it declares. *)
Definition decl_of (name : str) : option (option str) :=
  if str_eqb name (lit "xmlns") then Some None
  else if prefixb (lit "xmlns:") name then Some (Some (skipn 6 name))
  else None.

(** The declarations among the attributes, applied; xmlns:p="" is an error, and
    so are declarations of the prefix xmlns, of xml as anything else, of another
    prefix as the xml namespace, and of anything as the xmlns namespace. *)
Fixpoint declare (sc : scope) (atts : list (str * str)) : option scope :=
  match atts with
  | [] => Some sc
  | (n, v) :: atts' =>
    match decl_of n with
    | None => declare sc atts'
    | Some None =>
      if str_eqb v xml_uri || str_eqb v xmlns_uri then None
      else declare (bind_scope sc None (match v with [] => None | _ => Some v end)) atts'
    | Some (Some p) =>
      match v with
      | [] => None
      | _ =>
        if str_eqb p (lit "xmlns") || str_eqb v xmlns_uri || negb (Bool.eqb (str_eqb p (lit "xml")) (str_eqb v xml_uri))
        then None
        else declare (bind_scope sc (Some p) (Some v)) atts'
      end
    end
  end.

(** A qualified name split at its colon. *)
Definition split_qname (q : str) : option (option str * str) :=
  match break1 58 q with
  | None => Some (None, q)
  | Some (p, l) => if is_name p && is_name l && negb (mem 58 l) then Some (Some p, l) else None
  end.

Definition resolve_elem (sc : scope) (q : str) : option (option str * str) :=
  match split_qname q with
  | Some (None, l) => Some (sc None, l)
  | Some (Some p, l) => match sc (Some p) with Some u => Some (Some u, l) | None => None end
  | None => None
  end.
Definition resolve_att (sc : scope) (q : str) : option (option str * str) :=
  match split_qname q with
  | Some (None, l) => Some (None, l)
  | Some (Some p, l) => match sc (Some p) with Some u => Some (Some u, l) | None => None end
  | None => None
  end.

Definition ename_eqb (a b : option str * str) : bool :=
  (match fst a, fst b with None, None => true | Some x, Some y => str_eqb x y | _, _ => false end)
  && str_eqb (snd a) (snd b).
Fixpoint nodup_enames (l : list (option str * str)) : bool :=
  match l with
  | [] => true
  | n :: l' => negb (existsb (ename_eqb n) l') && nodup_enames l'
  end.

(** Attributes that are not declarations, with expanded names. *)
Fixpoint resolve_atts (sc : scope) (atts : list (str * str)) : option (list ((option str * str) * str)) :=
  match atts with
  | [] => Some []
  | (n, v) :: atts' =>
    match decl_of n with
    | Some _ => resolve_atts sc atts'
    | None =>
      match resolve_att sc n, resolve_atts sc atts' with
      | Some e, Some l => Some ((e, v) :: l)
      | _, _ => None
      end
    end
  end.

Fixpoint resolve (sc : scope) (n : rnode) : option xnode :=
  match n with
  | RText s => Some (XText s)
  | RComment s => Some (XComment s)
  | RPI t d => Some (XPI t d)
  | RDoctype _ _ _ => None
  | RElem q atts kids =>
    match declare sc atts with
    | None => None
    | Some sc' =>
      match resolve_elem sc' q, resolve_atts sc' atts,
            (fix go (l : list rnode) : option (list xnode) :=
               match l with
               | [] => Some []
               | k :: l' =>
                 match resolve sc' k, go l' with
                 | Some x, Some xs => Some (x :: xs)
                 | _, _ => None
                 end
               end) kids with
      | Some (u, l), Some xa, Some xk =>
        if nodup_enames (map fst xa) then Some (XElem u l xa xk) else None
      | _, _, _ => None
      end
    end
  end.

(** Equal trees: attributes of an element are unordered. *)
Inductive same_tree : xnode -> xnode -> Prop :=
| same_text : forall s, same_tree (XText s) (XText s)
| same_comment : forall s, same_tree (XComment s) (XComment s)
| same_pi : forall t d, same_tree (XPI t d) (XPI t d)
| same_elem : forall u l a a' k k',
    Permutation a a' -> Forall2 same_tree k k' -> same_tree (XElem u l a k) (XElem u l a' k').
