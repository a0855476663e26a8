(** * XML string functions: amara.lib.xmlstring (lib/src/xmlstring.c, lib/lib/xmlstring.py)

    A unicode object is the list of its units (code points, or UTF-16 units on narrow
    builds).  The C functions that walk the buffer up to its terminating zero stop at
    a zero unit inside the string as well. *)
From Coq Require Import NArith String List Bool.
From Verif Require Import PyStr PyErr Utf8 XsTables.
Import ListNotations.
Local Open Scope N_scope.

(** Memory outside the buffer decides the answer. *)
Definition Garbage := OtherError 1.

(** ** Character classes *)
(** TEST_CHARSET, xmlstring.c:24-25. *)
Definition test_charset (set : list N) (c : N) : bool :=
  let byte i := nth (N.to_nat i) set 0 in
  N.testbit (byte (256 + N.shiftl (byte (N.shiftr c 8)) 5 + N.shiftr (N.land c 255) 3)) (N.land c 7).
(** MATCH_CHARSET and the classes, 26-34 (on narrow builds every unit is below 65536). *)
Definition match_charset (set : list N) (c : N) : bool := (c <? 65536) && test_charset set c.
Definition is_ncname_start := match_charset charset_ncname_start.
Definition is_ncname_char := match_charset charset_ncname_char.
Definition is_name_start := match_charset charset_name_start.
Definition is_name_char := match_charset charset_name_char.
(** IS_XMLSPACE, 35-38 *)
Definition is_xmlspace (c : N) : bool := (c =? 9) || (c =? 10) || (c =? 13) || (c =? 32).

(** ** White space *)
(** XmlStrip, xmlstring.c:40-60. *)
Definition xml_strip (left right : bool) (s : str) : str :=
  let s := if left then snd (span is_xmlspace s) else s in
  if right then rev (snd (span is_xmlspace (rev s))) else s.
(** IsSpace, xmlstring.c:113-127. *)
Fixpoint is_space (s : str) : bool :=
  match s with [] => true | c :: r => if is_xmlspace c then is_space r else false end.
(** The first loop of NormalizeSpace, 74-77: does some unit and the next one both match?
    After the last unit comes the terminating zero. *)
Fixpoint has_run (s : str) : bool :=
  match s with
  | [] => false
  | c :: r => if is_xmlspace c && match r with d :: _ => is_xmlspace d | [] => false end then true else has_run r
  end.
(** The second loop, 94-102.  The code compacts in place; what it writes lies before
    what it still has to read, so the model makes a new list.  If the run of white
    space is at the end the terminating zero is copied too. *)
Fixpoint compact (in_run : bool) (s : str) : str :=
  match s with
  | [] => if in_run then [0] else []
  | c :: r =>
      if is_xmlspace c then if in_run then compact true r else 32 :: compact true r
      else c :: compact false r
  end.
(** NormalizeSpace, 62-111.  For the empty string the code reads the unit before the
    buffer, [junk]. *)
Definition normalize_space (junk : N) (s : str) : str :=
  if negb (has_run s) && negb (is_xmlspace (hd 0 s)) && negb (is_xmlspace (last s junk)) then s
  else compact false (xml_strip true true s).

(** ** Names *)
Fixpoint rest_match (p : N -> bool) (s : str) : bool :=
  match s with [] => true | c :: r => if c =? 0 then true else if p c then rest_match p r else false end.
(** IsName, xmlstring.c:129-158. *)
Definition is_name (s : str) : bool :=
  match s with [] => false | c :: r => if c =? 0 then false else if is_name_start c then rest_match is_name_char r else false end.
(** The loop of IsNames, 177-188; [first]: at the beginning of the do block. *)
Fixpoint names_loop (first : bool) (s : str) : bool :=
  match s with
  | [] => if first then is_name_start 0 else true
  | c :: r =>
      if first then if is_name_start c then names_loop false r else false
      else if c =? 0 then true else if c =? 32 then names_loop true r
      else if is_name_char c then names_loop false r else false
  end.
(** IsNames, 160-191. *)
Definition is_names (s : str) : bool :=
  match s with [] => false | c :: _ => if c =? 0 then false else names_loop true s end.
(** IsNmtoken, 193-217: the loop starts with [p++], so the first unit is not tested. *)
Definition is_nmtoken (s : str) : bool :=
  match s with [] => false | c :: r => if c =? 0 then false else rest_match is_name_char r end.
(** The loop of IsNmtokens, 235-242.  If the string ends with a space, [p++] steps over
    the terminating zero and the loop reads what lies behind the buffer. *)
Fixpoint nmtokens_loop (first : bool) (s : str) : result bool :=
  match s with
  | [] => if first then Err Garbage else Ok true
  | c :: r =>
      if first then nmtokens_loop false r
      else if c =? 0 then Ok true else if c =? 32 then nmtokens_loop true r
      else if is_name_char c then nmtokens_loop false r else Ok false
  end.
(** IsNmtokens, 219-245. *)
Definition is_nmtokens (s : str) : result bool :=
  match s with [] => Ok false | c :: _ => if c =? 0 then Ok false else nmtokens_loop true s end.
(** IsNCName, 296-325. *)
Definition is_ncname (s : str) : bool :=
  match s with [] => false | c :: r => if c =? 0 then false else if is_ncname_start c then rest_match is_ncname_char r else false end.
(** The loop of IsQName, 269-291. *)
Fixpoint qname_loop (s : str) : bool :=
  match s with
  | [] => true
  | c :: r =>
      if c =? 0 then true
      else if is_ncname_char c then qname_loop r
      else if c =? 58 then match r with [] => is_ncname_start 0 | d :: r2 => if is_ncname_start d then rest_match is_ncname_char r2 else false end
      else false
  end.
(** IsQName, 247-294. *)
Definition is_qname (s : str) : bool :=
  match s with [] => false | c :: r => if c =? 0 then false else if is_ncname_start c then qname_loop r else false end.
(** SplitQName, 327-361: None is the missing prefix. *)
Definition split_qname (s : str) : option str * str :=
  match break1 58 s with Some (p, l) => (Some p, l) | None => (None, s) end.
(** MakeQName, 363-390: an empty prefix counts as none. *)
Definition make_qname (prefix : option str) (local : str) : str :=
  match prefix with Some (c :: p) => (c :: p) ++ 58 :: local | _ => local end.

(** ** isxml *)
Definition big_endian (bs : str) : option N :=
  match bs with a :: b :: c :: d :: _ => Some (a * 16777216 + b * 65536 + c * 256 + d) | _ => None end.
Definition starts_markup (decoded : option str) : bool :=
  match decoded with
  | None => false
  | Some s => match snd (span is_xmlspace s) with c :: _ => c =? 60 | [] => false end
  end.
(** string_isxml, xmlstring.c:585-668.  [utf16] and [utf32] are Python's codecs. *)
Definition is_xml (utf16 utf32 : str -> option str) (bs : str) : bool :=
  match big_endian bs with
  | None => starts_markup (utf8_decode bs)
  | Some ch =>
      if existsb (N.eqb ch) [0x3C3F786D; 0x003C003F; 0x3C003F00; 0x4C6FA794; 0x0000003C; 0x3C000000; 0x00003C00; 0x003C0000] then true
      else if existsb (N.eqb ch) [0x0000FEFF; 0xFFFE0000; 0x0000FFFE; 0xFEFF0000] then starts_markup (utf32 bs)
      else if ch / 256 =? 0xEFBBBF then starts_markup (utf8_decode (skipn 3 bs))
      else if existsb (N.eqb (ch / 65536)) [0xFEFF; 0xFFFE] then starts_markup (utf16 bs)
      else starts_markup (utf8_decode bs)
  end.

(** ** legalize *)
(** The classes of RE_XML_ILLEGAL_PAT, lib/lib/xmlstring.py:75-80. *)
Definition control (c : N) : bool :=
  (c <=? 8) || ((0xB <=? c) && (c <=? 0xC)) || ((0xE <=? c) && (c <=? 0x1F)) || ((0xFFFE <=? c) && (c <=? 0xFFFF)).
Definition hi (c : N) : bool := (0xD800 <=? c) && (c <=? 0xDBFF).
Definition lo (c : N) : bool := (0xDC00 <=? c) && (c <=? 0xDFFF).
(** The length of the match of the pattern at a position, 0 if there is none; the
    alternatives are tried in order.  [start]: the position is the start of the string
    (for [^]).  [$] also matches before a newline at the end of the string; there the
    second alternative matches first. *)
Definition illegal_length (start : bool) (s : str) : nat :=
  match s with
  | [] => 0
  | c :: r =>
      if control c then 1
      else match r with
           | d :: _ => if hi c && negb (lo d) then 2 else if negb (hi c) && lo d then 2 else if start && lo c then 1 else 0
           | [] => if hi c then 1 else if start && lo c then 1 else 0
           end
  end%nat.
Fixpoint legalize_loop (repl : str) (start : bool) (s : str) : str :=
  match s with
  | [] => []
  | c :: r =>
      match illegal_length start s with
      | O => c :: legalize_loop repl false r
      | S O => repl ++ legalize_loop repl false r
      | _ => match r with [] => repl | _ :: r2 => repl ++ legalize_loop repl false r2 end
      end
  end.
(** legalize, lib/lib/xmlstring.py:83-90 (re.subn; [repl] contains no backslash). *)
Definition legalize (repl s : str) : str := legalize_loop repl true s.
