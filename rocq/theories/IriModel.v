(** * Model of /repo/lib/lib/iri.py

    Strings are lists of code points (see PyStr.v).  Where the Python 2 type
    of a string ([str] or [unicode]) matters, [pystr] keeps it. *)
From Coq Require Import NArith ZArith String List Bool.
From Verif Require Import PyStr PyErr Regex Utf8.
Import ListNotations.
Open Scope N_scope.

Notation cHASH := 35.   (* # *)
Notation cPCT := 37.    (* % *)
Notation cPLUS := 43.   (* + *)
Notation cMINUS := 45.  (* - *)
Notation cDOT := 46.    (* . *)
Notation cSLASH := 47.  (* / *)
Notation cCOLON := 58.  (* : *)
Notation cSEMI := 59.   (* ; *)
Notation cQUEST := 63.  (* ? *)
Notation cAT := 64.     (* @ *)
Notation cLF := 10.

(** ** split_uri_ref: iri.py:282-323 *)

(** Character classes of the regular expression at iri.py:295. *)
Definition not_in (cs : str) (c : N) : bool := negb (mem c cs).
Definition scheme_class := not_in [cCOLON; cSLASH; cQUEST; cHASH].
Definition auth_class := not_in [cSLASH; cQUEST; cHASH].
Definition path_class := not_in [cQUEST; cHASH].
Definition query_class := not_in [cHASH].
Definition dot_class := not_in [cLF].   (* '.' without DOTALL *)
Definition is (c : N) : N -> bool := N.eqb c.

(** iri.py:295, the pattern: groups 0..4 are scheme, authority, path, query, fragment. *)
Definition SPLIT_URI_REF_PATTERN : re :=
  Seq (Opt (Seq (Grp 0 (Plus scheme_class)) (Chr (is cCOLON))))
 (Seq (Opt (Seq (Chr (is cSLASH)) (Seq (Chr (is cSLASH)) (Grp 1 (Star auth_class)))))
 (Seq (Grp 2 (Star path_class))
 (Seq (Opt (Seq (Chr (is cQUEST)) (Grp 3 (Star query_class))))
 (Seq (Opt (Seq (Chr (is cHASH)) (Grp 4 (Star dot_class))))
      Eol)))).

Record uriparts := mkparts {
  u_scheme : option str; u_auth : option str; u_path : str;
  u_query : option str; u_frag : option str }.

(** iri.py:302-323.  No match gives [None.groupdict()], an AttributeError.
    Group 2 is never absent in a match. *)
Definition split_uri_ref (u : str) : result uriparts :=
  match re_match SPLIT_URI_REF_PATTERN u with
  | None => Err AttributeError
  | Some (_, c) =>
    Ok (mkparts (cap 0 c) (cap 1 c) (match cap 2 c with Some p => p | None => [] end)
                (cap 3 c) (cap 4 c))
  end.

Definition opt_pre (p : str) (o : option str) : str :=
  match o with Some s => p ++ s | None => [] end.

(** iri.py:326-344 *)
Definition unsplit_uri_ref (p : uriparts) : str :=
  (match u_scheme p with Some s => s ++ [cCOLON] | None => [] end)
  ++ opt_pre [cSLASH; cSLASH] (u_auth p)
  ++ u_path p
  ++ opt_pre [cQUEST] (u_query p)
  ++ opt_pre [cHASH] (u_frag p).

(** ** split_authority: iri.py:347-375 *)
Definition SPLIT_AUTHORITY_PATTERN : re :=
  Seq (Opt (Seq (Grp 0 (Star (not_in [cAT]))) (Chr (is cAT))))
 (Seq (Grp 1 (Star (not_in [cCOLON])))
      (Opt (Seq (Chr (is cCOLON)) (Grp 2 (Star dot_class))))).

Definition split_authority (a : str) : option str * str * option str :=
  match re_match SPLIT_AUTHORITY_PATTERN a with
  | Some (_, c) => (cap 0 c, match cap 1 c with Some h => h | None => [] end, cap 2 c)
  | None => (None, a, None)
  end.

(** ** split_fragment, strip_fragment: iri.py:378-391, 1167-1172.
    [rbreak1] gives the text up to and including the last '#'. *)
Definition split_fragment (u : str) : str * str :=
  match rbreak1 cHASH u with
  | ([], b) => (b, [])
  | (a, b) => (removelast a, b)
  end.
Definition strip_fragment (u : str) : str := fst (split_fragment u).

(** ** get_scheme, is_absolute: iri.py:1147-1181 *)
Definition scheme_tail (c : N) : bool :=
  is_alpha c || is_digit c || mem c [cPLUS; cMINUS; cDOT].
Definition SCHEME_PATTERN : re :=
  Seq (Grp 1 (Seq (Chr is_alpha) (Star scheme_tail))) (Chr (is cCOLON)).
Definition get_scheme (u : str) : option str :=
  match re_match SCHEME_PATTERN u with Some (_, c) => cap 1 c | None => None end.
Definition is_absolute (u : str) : bool :=
  match get_scheme u with Some _ => true | None => false end.

(** ** remove_dot_segments: iri.py:856-909 *)

(** iri.py:868-875: the loop that drops leading "./" and "../". *)
Fixpoint strip_leading_dots (p : str) : str :=
  match p with
  | a :: ((b :: c) as t) =>
    if N.eqb a cDOT then
      if N.eqb b cSLASH then strip_leading_dots c
      else match c with
           | d :: e => if N.eqb b cDOT && N.eqb d cSLASH then strip_leading_dots e else p
           | [] => p
           end
    else p
  | _ => p
  end.

(** iri.py:884-886: a trailing "/." loses its dot. *)
Fixpoint drop_trailing_dot (p : str) : str :=
  match p with
  | [] => []
  | a :: p' =>
    match p' with
    | [b] => if N.eqb a cSLASH && N.eqb b cDOT then [a] else p
    | _ => a :: drop_trailing_dot p'
    end
  end.

Definition seg_dot : str := [cDOT].
Definition seg_dotdot : str := [cDOT; cDOT].

(** iri.py:890-907: the loop over the segments; [keep] is the list of kept
    segments, last first. *)
Fixpoint dot_loop (leading_slash : bool) (keep : list str) (segs : list str) : list str :=
  match segs with
  | [] => keep
  | seg :: rest =>
    let keep' :=
      if str_eqb seg seg_dotdot then
        let k1 := match keep with
                  | _ :: k => k
                  | [] => if leading_slash then [] else [seg]
                  end in
        match rest with [] => [] :: k1 | _ => k1 end
      else if str_eqb seg seg_dot then keep
      else seg :: keep in
    dot_loop leading_slash keep' rest
  end.

Definition remove_dot_segments (path : str) : str :=
  if str_eqb path seg_dot || str_eqb path seg_dotdot then []
  else
    let p := strip_leading_dots path in
    let (ls, p1) := match p with
                    | c :: q => if N.eqb c cSLASH then (true, q) else (false, p)
                    | [] => (false, p)
                    end in
    let p2 := drop_trailing_dot p1 in
    (if ls then [cSLASH] else [])
    ++ join [cSLASH] (rev (dot_loop ls [] (split1 cSLASH p2))).

(** ** normalize_path_segments(_in_uri): iri.py:970-992 *)
Definition normalize_path_segments (p : str) : str :=
  match p with
  | c :: _ => if N.eqb c cSLASH then remove_dot_segments p else p
  | [] => p
  end.
Definition normalize_path_segments_in_uri (u : str) : result str :=
  do c <- split_uri_ref u;
  Ok (unsplit_uri_ref (mkparts (u_scheme c) (u_auth c) (normalize_path_segments (u_path c))
                               (u_query c) (u_frag c))).

(** ** absolutize: iri.py:621-739 *)

Definition RELATIVE_BASE_URI : N := 111.
Definition UNSUPPORTED_SCHEME : N := 201.

(** iri.py:722-727 *)
Definition merge_path (bAuth : option str) (bPath rPath : str) : str :=
  match bAuth, bPath with
  | Some _, [] => cSLASH :: rPath
  | _, _ => fst (rbreak1 cSLASH bPath) ++ rPath
  end.

(** iri.py:689-739: everything after the guards. *)
Definition resolve (uriRef baseUri : str) : result str :=
  do r <- split_uri_ref uriRef;
  match u_scheme r with
  | Some _ =>
    Ok (unsplit_uri_ref (mkparts (u_scheme r) (u_auth r) (remove_dot_segments (u_path r))
                                 (u_query r) (u_frag r)))
  | None =>
    do b <- split_uri_ref baseUri;
    match u_auth r with
    | Some _ =>
      Ok (unsplit_uri_ref (mkparts (u_scheme b) (u_auth r) (remove_dot_segments (u_path r))
                                   (u_query r) (u_frag r)))
    | None =>
      match u_path r with
      | [] =>
        (* iri.py:715: rQuery is not None and rQuery or bQuery *)
        let tQuery := match u_query r with
                      | Some (c :: q) => Some (c :: q)
                      | _ => u_query b
                      end in
        Ok (unsplit_uri_ref (mkparts (u_scheme b) (u_auth b) (u_path b) tQuery (u_frag r)))
      | c :: _ =>
        let tPath := if N.eqb c cSLASH then remove_dot_segments (u_path r)
                     else remove_dot_segments (merge_path (u_auth b) (u_path b) (u_path r)) in
        Ok (unsplit_uri_ref (mkparts (u_scheme b) (u_auth b) tPath (u_query r) (u_frag r)))
      end
    end
  end.

(** [limit_schemes] is [None] or a list; an empty list is falsy (iri.py:682). *)
Definition absolutize (uriRef baseUri : str) (limit_schemes : option (list str)) : result str :=
  if is_absolute uriRef then Ok uriRef
  else if negb (is_absolute baseUri) then Err (IriError RELATIVE_BASE_URI)   (* also covers '' *)
  else
    let scheme_ok :=
      match limit_schemes, get_scheme baseUri with
      | Some (l :: ls), Some s => existsb (str_eqb s) (l :: ls)
      | _, _ => true
      end in
    if negb scheme_ok then Err (IriError UNSUPPORTED_SCHEME)
    else
      match uriRef with
      | [] => Ok (hd [] (split1 cHASH baseUri) ++ uriRef)
      | c :: _ =>
        if N.eqb c cHASH then Ok (hd [] (split1 cHASH baseUri) ++ uriRef)
        else resolve uriRef baseUri
      end.

(** ** relativize: iri.py:742-853 *)

(** iri.py:797-817: the number of leading segments in common. *)
Fixpoint common_segs (t a : list str) : nat :=
  match t, a with
  | x :: t', y :: a' =>
    if str_eqb x y
       && negb (match a' with [] => str_eqb y [] | _ => false end)
       && negb (match t' with [] => str_eqb x [] | _ => false end)
    then S (common_segs t' a')
    else O
  | _, _ => O
  end.

Fixpoint repeat_str (s : str) (n : nat) : str :=
  match n with O => [] | S m => s ++ repeat_str s m end.

Definition opt_str_eqb (a b : option str) : bool :=
  match a, b with
  | None, None => true
  | Some x, Some y => str_eqb x y
  | _, _ => false
  end.

Definition starts_slash (p : str) : bool :=
  match p with c :: _ => N.eqb c cSLASH | [] => false end.

(** [Ok None] is Python's [None]. *)
Definition relativize (targetUri againstUri : str) (subPathOnly : bool) : result (option str) :=
  if negb (is_absolute targetUri) || negb (is_absolute againstUri) then Ok None
  else
    do t0 <- normalize_path_segments_in_uri targetUri;
    do a0 <- normalize_path_segments_in_uri againstUri;
    do t1 <- absolutize t0 t0 None;
    do t <- split_uri_ref t1;
    do a1 <- absolutize a0 a0 None;
    do a <- split_uri_ref a1;
    if negb (opt_str_eqb (u_scheme t) (u_scheme a) && opt_str_eqb (u_auth t) (u_auth a)) then Ok None
    else
      let tp := u_path t in
      let ap := match u_path a with [] => [cSLASH] | p => p end in
      let go (leadingSlash : bool) (targetPath againstPath : str) : result (option str) :=
        let ts := split1 cSLASH targetPath in
        let ass := split1 cSLASH againstPath in
        let i := common_segs ts ass in
        let traverse := (Z.of_nat (List.length ass) - Z.of_nat i - 1)%Z in
        let out (rel : str) := Ok (Some (unsplit_uri_ref (mkparts None None rel (u_query t) (u_frag t)))) in
        if Nat.eqb i 0 && leadingSlash then
          if Nat.eqb (List.length ass) 1 then out targetPath
          else if subPathOnly then Ok None
          else out (cSLASH :: targetPath)
        else if (0 <? traverse)%Z then
          if subPathOnly then Ok None
          else out (repeat_str [cDOT; cDOT; cSLASH] (Z.to_nat traverse) ++ join [cSLASH] (skipn i ts))
        else
          match skipn i ts with
          | [] :: _ :: _ => out ([cDOT; cSLASH] ++ join [cSLASH] (skipn i ts))
          | _ => out (join [cSLASH] (skipn i ts))
          end in
      if starts_slash tp || starts_slash ap then
        if Bool.eqb (starts_slash tp) (starts_slash ap) then go true (tl tp) (tl ap)
        else Ok None
      else go false tp ap.

(** ** Percent-encoding: iri.py:399-618 *)

Inductive pystr := PyB (s : str) | PyU (s : str).   (* str, unicode *)
Definition raw (p : pystr) : str := match p with PyB s => s | PyU s => s end.

(** iri.py:399 *)
Definition unreserved (c : N) : bool := is_digit c || is_alpha c || mem c (lit "-._~").
(** iri.py:410 *)
Definition RESERVED : str := lit "/=&+?#;@,:$!*[]()'".

Definition hexdigit (n : N) : N := if n <? 10 then 48 + n else 55 + n.
(** ['%%%02X' % n] for n < 256 *)
Definition pct2 (n : N) : str := [cPCT; hexdigit (n / 16); hexdigit (n mod 16)].

Definition is_high (c : N) : bool := (55296 <=? c) && (c <? 56320).
Definition is_low (c : N) : bool := (56320 <=? c) && (c <? 57344).

(** iri.py:416-457 ([_chars]) on a unicode string: each yielded item is one
    character, or the joined surrogate pair, here already the code point the
    pair denotes, with [true] for a two-element item. *)
Fixpoint chars_u (s : str) : result (list (N * bool)) :=
  match s with
  | [] => Ok []
  | i :: s' =>
    if is_high i then
      match s' with
      | [] => Err ValueError
      | j :: s'' =>
        if is_low j then
          do r <- chars_u s'';
          Ok ((65536 + (i - 55296) * 1024 + (j - 56320), true) :: r)
        else Err ValueError
      end
    else if is_low i then Err ValueError
    else do r <- chars_u s'; Ok ((i, false) :: r)
  end.

(** One iteration of the loop iri.py:515-551.  The [bool] tells whether the
    piece appended to [res] is a unicode object ([res += c]) rather than a
    byte string; adding one makes [res] unicode. *)
Definition enc1 (is_unicode encodeReserved spaceToPlus : bool) (reserved : str)
           (c : N) (pair : bool) : str * bool :=
  if pair then (flat_map pct2 (utf8_1 c), false)
  else if unreserved c then ([c], is_unicode)
  else if c <? 128 then
    if spaceToPlus && N.eqb c 32 then ([cPLUS], false)
    else if mem c reserved then
      if encodeReserved then (pct2 c, false) else ([c], is_unicode)
    else (pct2 c, false)
  else if is_unicode then (flat_map pct2 (utf8_1 c), false)
  else (pct2 c, false).

(** iri.py:460-552, encoding 'utf-8'.  [nlChars] has no effect in the code
    (the result of [s.replace] at 513 is discarded) and is omitted. *)
Definition percent_encode_ (encodeReserved spaceToPlus : bool) (reserved : str) (s : pystr) : result pystr :=
  match s with
  | PyB b => Ok (PyB (flat_map (fun c => fst (enc1 false encodeReserved spaceToPlus reserved c false)) b))
  | PyU u =>
    do cs <- chars_u u;
    let pieces := map (fun cp => enc1 true encodeReserved spaceToPlus reserved (fst cp) (snd cp)) cs in
    let out := flat_map fst pieces in
    Ok (if existsb snd pieces then PyU out else PyB out)
  end.
(** Default arguments. *)
Definition percent_encode (s : pystr) : result pystr := percent_encode_ true false RESERVED s.

(** Python's [int(two_chars, 16)], ASCII only (simplification: for unicode
    strings Python also accepts non-ASCII digits and spaces). *)
Definition hexval (c : N) : option N :=
  if is_digit c then Some (c - 48)
  else if (65 <=? c) && (c <=? 70) then Some (c - 55)
  else if (97 <=? c) && (c <=? 102) then Some (c - 87)
  else None.
Definition is_pyspace (c : N) : bool := ((9 <=? c) && (c <=? 13)) || (c =? 32).
Definition int16 (a b : N) : option Z :=
  match hexval a, hexval b with
  | Some x, Some y => Some (Z.of_N (16 * x + y))
  | Some x, None => if is_pyspace b then Some (Z.of_N x) else None
  | None, Some y =>
    if is_pyspace a then Some (Z.of_N y)
    else if N.eqb a cPLUS then Some (Z.of_N y)
    else if N.eqb a cMINUS then Some (- Z.of_N y)%Z
    else None
  | None, None => None
  end.

(** iri.py:593-604: one item after a '%'; [chr] of a negative number is a
    ValueError, caught by the same handler. *)
Definition dec_item (decodable : option str) (item : str) : str :=
  match item with
  | a :: b :: rest =>
    match int16 a b with
    | Some z =>
      if (z <? 0)%Z then cPCT :: item
      else
        let c := Z.to_N z in
        match decodable with
        | None => c :: rest
        | Some d => if mem c d then c :: rest else cPCT :: item
        end
    | None => cPCT :: item
    end
  | _ => cPCT :: item
  end.

Definition pct_decode_raw (decodable : option str) (s : str) : str :=
  match split1 cPCT s with
  | [] => []
  | h :: items => h ++ flat_map (dec_item decodable) items
  end.

(** iri.py:555-618, encoding 'utf-8' *)
Definition percent_decode_ (decodable : option str) (s : pystr) : result pystr :=
  match s with
  | PyB b => Ok (PyB (pct_decode_raw decodable b))
  | PyU u =>
    let r := pct_decode_raw decodable u in
    if forallb (fun c => c <? 256) r then
      match utf8_decode r with
      | Some v => Ok (PyU v)
      | None => Err UnicodeDecodeError
      end
    else Err UnicodeEncodeError
  end.
Definition percent_decode (s : pystr) : result pystr := percent_decode_ None s.

(** ** Normalisation: iri.py:912-967 *)

(** iri.py:930-936: [re.sub('%([0-9a-f][0-9a-f])', upper, component)] *)
Definition lower_hex (c : N) : bool := is_digit c || ((97 <=? c) && (c <=? 102)).
Fixpoint upper_escapes (s : str) : str :=
  match s with
  | [] => []
  | c :: s' =>
    match s' with
    | a :: b :: r =>
      if N.eqb c cPCT && lower_hex a && lower_hex b
      then c :: upper1 a :: upper1 b :: upper_escapes r
      else c :: upper_escapes s'
    | _ => c :: upper_escapes s'
    end
  end.

(** iri.py:912-957 on an already split reference *)
Definition normalize_case_parts (doHost : bool) (p : uriparts) : uriparts :=
  let scheme := option_map (fun s => lower (upper_escapes s)) (u_scheme p) in
  let auth0 := option_map upper_escapes (u_auth p) in
  let auth :=
    match auth0 with
    | Some (c :: a) =>
      if doHost then
        let '(ui, host, port) := split_authority (c :: a) in
        Some ((match ui with Some u => u ++ [cAT] | None => [] end)
              ++ lower host
              ++ (match port with Some q => cCOLON :: q | None => [] end))
      else auth0
    | _ => auth0
    end in
  mkparts scheme auth (upper_escapes (u_path p))
          (option_map upper_escapes (u_query p)) (option_map upper_escapes (u_frag p)).
Definition normalize_case (doHost : bool) (u : str) : result str :=
  do p <- split_uri_ref u; Ok (unsplit_uri_ref (normalize_case_parts doHost p)).

(** iri.py:960-967 *)
Definition DECODABLE : str :=
  lit "0123456789abcdefghijklmnopqrstuvwxyzABCDEFGHIJKLMNOPQRSTUVWXYZ-._~".
Definition normalize_percent_encoding (s : pystr) : result pystr :=
  percent_decode_ (Some DECODABLE) s.

(** ** RFC 3151: iri.py:1097-1141 *)
Definition INVALID_PUBLIC_ID_URN : N := 400.

(** [path.split(':', 1)] with more than one piece is [break1]. *)
Definition urn_to_public_id (urn : str) : result str :=
  match urn with
  | [] => Err (IriError INVALID_PUBLIC_ID_URN)
  | _ =>
    do p <- split_uri_ref urn;
    match u_scheme p with
    | Some s =>
      if str_eqb (lower s) (lit "urn") then
        match break1 cCOLON (u_path p) with
        | Some (a, b) =>
          if str_eqb (pct_decode_raw None a) (lit "publicid") then
            Ok (pct_decode_raw None
                  (replace1 cSEMI [cCOLON; cCOLON]
                    (replace1 cCOLON [cSLASH; cSLASH] (replace1 cPLUS [32] b))))
          else Err (IriError INVALID_PUBLIC_ID_URN)
        | None => Err (IriError INVALID_PUBLIC_ID_URN)
        end
      else Err (IriError INVALID_PUBLIC_ID_URN)
    | None => Err (IriError INVALID_PUBLIC_ID_URN)
    end
  end.

(** [' '] for every run of characters of [[ \t\r\n]]: iri.py:1130 *)
Definition is_xmlspace (c : N) : bool := mem c [32; 9; 13; 10].
Fixpoint condense (s : str) : str :=
  match s with
  | [] => []
  | c :: s' =>
    if is_xmlspace c then
      match s' with
      | d :: _ => if is_xmlspace d then condense s' else 32 :: condense s'
      | [] => [32]
      end
    else c :: condense s'
  end.
(** [s.strip()] on a byte string *)
Fixpoint lstrip (s : str) : str :=
  match s with c :: s' => if is_pyspace c then lstrip s' else s | [] => [] end.
Definition strip (s : str) : str := rev (lstrip (rev (lstrip s))).

Definition enc_plus (s : str) : str :=
  flat_map (fun c => fst (enc1 false true true RESERVED c false)) s.
(** iri.py:1125-1141 on a byte string *)
Definition public_id_to_urn (publicid : str) : str :=
  lit "urn:publicid:"
  ++ join [cCOLON]
       (map (fun ds => join [cSEMI] (map enc_plus (split2 cCOLON cCOLON ds)))
            (split2 cSLASH cSLASH (condense (strip publicid)))).

(** ** File paths: iri.py:1285-1423 and 1426-1590, osname = 'posix'.

    [cwd] is [os.getcwd()]; [local] says that osname == os.name. *)
Definition NON_FILE_URI : N := 120.
Definition UNIX_REMOTE_HOST_FILE_URI : N := 121.

(** [posixpath.join(a, b)] *)
Definition posix_join (a b : str) : str :=
  if starts_slash b then b
  else match a with
       | [] => b
       | _ => if N.eqb (last a 0) cSLASH then a ++ b else a ++ cSLASH :: b
       end.

(** Byte strings only; a unicode path goes through the same code with
    [percent_encode] of unicode segments. *)
Definition enc_bytes (s : str) : str :=
  flat_map (fun c => fst (enc1 false true false RESERVED c false)) s.
Definition os_path_to_uri_posix (local : bool) (cwd : str) (attemptAbsolute : bool) (path : str) : str :=
  let (p, isabs) :=
    if starts_slash path then (remove_dot_segments path, true)
    else if attemptAbsolute && local then
      let q := posix_join cwd path in (q, starts_slash q)
    else (path, false) in
  let enc := join [cSLASH] (map enc_bytes (split1 cSLASH p)) in
  if isabs then lit "file://" ++ enc else lit "file:" ++ enc.

(** [re.sub('%2[fF]', '\\/', path)]: iri.py:1584 *)
Fixpoint sub_2f (s : str) : str :=
  match s with
  | [] => []
  | c :: s' =>
    match s' with
    | a :: b :: r =>
      if N.eqb c cPCT && N.eqb a 50 && (N.eqb b 70 || N.eqb b 102)
      then 92 :: cSLASH :: sub_2f r
      else c :: sub_2f s'
    | _ => c :: sub_2f s'
    end
  end.

Definition uri_to_os_path_posix (local : bool) (cwd : str) (attemptAbsolute : bool) (uri : str) : result str :=
  do p <- split_uri_ref uri;
  let bad_scheme := match u_scheme p with
                    | Some (c :: s) => negb (str_eqb (c :: s) (lit "file"))
                    | _ => false
                    end in
  if bad_scheme then Err (IriError NON_FILE_URI)
  else
    let auth := match u_auth p with
                | Some a => if str_eqb a (lit "localhost") then None else Some a
                | None => None
                end in
    match auth with
    | Some (_ :: _) => Err (IriError UNIX_REMOTE_HOST_FILE_URI)
    | _ =>
      let path := pct_decode_raw None (sub_2f (u_path p)) in
      Ok (if attemptAbsolute && local && negb (starts_slash path) then posix_join cwd path else path)
    end.

(** ** iri_to_uri: iri.py:51-124, convertHost = False.
    [iri] is what [nfc_normalize] returned (NFC itself is not modelled). *)
(** iri.py:115,118: the code point of a surrogate pair. *)
Definition surrogate_pair (h l : N) : N := 65536 + (h - 55296) * 1024 + (l - 56320).
Fixpoint iri_loop (surrogate : option N) (s : str) : result str :=
  match s with
  | [] => Ok []
  | cp :: s' =>
    if 128 <? cp then
      if cp <? 160 then Err ValueError
      else if 55295 <? cp then
        if cp <? 56320 then iri_loop (Some cp) s'
        else if cp <? 57344 then
          match surrogate with
          | None => Err ValueError
          | Some h =>
            do r <- iri_loop None s'; Ok (flat_map pct2 (utf8_1 (surrogate_pair h cp)) ++ r)
          end
        else Err ValueError
      else do r <- iri_loop surrogate s'; Ok (flat_map pct2 (utf8_1 cp) ++ r)
    else do r <- iri_loop surrogate s'; Ok (cp :: r)
  end.
Definition iri_to_uri (iri : str) : result str := iri_loop None iri.

(** ** basejoin, join: iri.py:1709-1762 *)
Definition basejoin (base uriRef : str) : result str :=
  if is_absolute base then absolutize uriRef base None
  else
    do res <- absolutize uriRef (lit "basejoin" ++ cCOLON :: base) None;
    if is_absolute uriRef then Ok res else Ok (skipn 9 res).

Fixpoint rstrip_slash_rev (s : str) : str :=
  match s with c :: s' => if N.eqb c cSLASH then rstrip_slash_rev s' else s | [] => [] end.
Definition rstrip_slash (s : str) : str := rev (rstrip_slash_rev (rev s)).
Fixpoint join_loop (base : str) (parts : list str) : result str :=
  match parts with
  | [] => Ok base
  | p :: ps => do b <- basejoin (rstrip_slash base ++ [cSLASH]) p; join_loop b ps
  end.
Definition iri_join (parts : list str) : result str :=
  match parts with [] => Err TypeError | b :: ps => join_loop b ps end.
