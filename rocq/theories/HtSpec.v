(** * Reference readers for HTML and XHTML, and what the printers promise

    Written from the W3C recommendations (HTML 4.01, XHTML 1.0, XML 1.0), not
    from /repo.  The readers report a sequence of nodes; one reader serves both
    languages ([xml]: XHTML).

    HTML: start tags with attribute minimization, end tags, the elements whose
    content model is EMPTY have no end tag, the content of SCRIPT and STYLE is
    CDATA, element names are compared without regard to case, references
    without semicolon and unknown references as browsers treat them, '<?' up to
    '>'.  End tags are never implied, and white space is reported as it stands
    (line breaks next to tags included).  XHTML: XML with the entities of the
    XHTML 1.0 DTD. *)
From Coq Require Import NArith String List Bool Lia Arith Permutation.
From Verif Require Import PyStr Utf8 SerModel SerSpec HtModel.
Import ListNotations.
Open Scope N_scope.

(** ** Character references *)

(** The 252 entities of HTML 4.01, section 24. *)
Definition entity_list : list (str * N) := map (fun e => (lit (fst e), snd e))
  [("quot"%string, 34); ("amp"%string, 38); ("lt"%string, 60); ("gt"%string, 62); ("nbsp"%string, 160); ("iexcl"%string, 161); ("cent"%string, 162); ("pound"%string, 163);
   ("curren"%string, 164); ("yen"%string, 165); ("brvbar"%string, 166); ("sect"%string, 167); ("uml"%string, 168); ("copy"%string, 169); ("ordf"%string, 170);
   ("laquo"%string, 171); ("not"%string, 172); ("shy"%string, 173); ("reg"%string, 174); ("macr"%string, 175); ("deg"%string, 176); ("plusmn"%string, 177);
   ("sup2"%string, 178); ("sup3"%string, 179); ("acute"%string, 180); ("micro"%string, 181); ("para"%string, 182); ("middot"%string, 183); ("cedil"%string, 184);
   ("sup1"%string, 185); ("ordm"%string, 186); ("raquo"%string, 187); ("frac14"%string, 188); ("frac12"%string, 189); ("frac34"%string, 190); ("iquest"%string, 191);
   ("Agrave"%string, 192); ("Aacute"%string, 193); ("Acirc"%string, 194); ("Atilde"%string, 195); ("Auml"%string, 196); ("Aring"%string, 197); ("AElig"%string, 198);
   ("Ccedil"%string, 199); ("Egrave"%string, 200); ("Eacute"%string, 201); ("Ecirc"%string, 202); ("Euml"%string, 203); ("Igrave"%string, 204);
   ("Iacute"%string, 205); ("Icirc"%string, 206); ("Iuml"%string, 207); ("ETH"%string, 208); ("Ntilde"%string, 209); ("Ograve"%string, 210); ("Oacute"%string, 211);
   ("Ocirc"%string, 212); ("Otilde"%string, 213); ("Ouml"%string, 214); ("times"%string, 215); ("Oslash"%string, 216); ("Ugrave"%string, 217); ("Uacute"%string, 218);
   ("Ucirc"%string, 219); ("Uuml"%string, 220); ("Yacute"%string, 221); ("THORN"%string, 222); ("szlig"%string, 223); ("agrave"%string, 224); ("aacute"%string, 225);
   ("acirc"%string, 226); ("atilde"%string, 227); ("auml"%string, 228); ("aring"%string, 229); ("aelig"%string, 230); ("ccedil"%string, 231); ("egrave"%string, 232);
   ("eacute"%string, 233); ("ecirc"%string, 234); ("euml"%string, 235); ("igrave"%string, 236); ("iacute"%string, 237); ("icirc"%string, 238); ("iuml"%string, 239);
   ("eth"%string, 240); ("ntilde"%string, 241); ("ograve"%string, 242); ("oacute"%string, 243); ("ocirc"%string, 244); ("otilde"%string, 245); ("ouml"%string, 246);
   ("divide"%string, 247); ("oslash"%string, 248); ("ugrave"%string, 249); ("uacute"%string, 250); ("ucirc"%string, 251); ("uuml"%string, 252);
   ("yacute"%string, 253); ("thorn"%string, 254); ("yuml"%string, 255); ("OElig"%string, 338); ("oelig"%string, 339); ("Scaron"%string, 352); ("scaron"%string, 353);
   ("Yuml"%string, 376); ("fnof"%string, 402); ("circ"%string, 710); ("tilde"%string, 732); ("Alpha"%string, 913); ("Beta"%string, 914); ("Gamma"%string, 915);
   ("Delta"%string, 916); ("Epsilon"%string, 917); ("Zeta"%string, 918); ("Eta"%string, 919); ("Theta"%string, 920); ("Iota"%string, 921); ("Kappa"%string, 922);
   ("Lambda"%string, 923); ("Mu"%string, 924); ("Nu"%string, 925); ("Xi"%string, 926); ("Omicron"%string, 927); ("Pi"%string, 928); ("Rho"%string, 929);
   ("Sigma"%string, 931); ("Tau"%string, 932); ("Upsilon"%string, 933); ("Phi"%string, 934); ("Chi"%string, 935); ("Psi"%string, 936); ("Omega"%string, 937);
   ("alpha"%string, 945); ("beta"%string, 946); ("gamma"%string, 947); ("delta"%string, 948); ("epsilon"%string, 949); ("zeta"%string, 950); ("eta"%string, 951);
   ("theta"%string, 952); ("iota"%string, 953); ("kappa"%string, 954); ("lambda"%string, 955); ("mu"%string, 956); ("nu"%string, 957); ("xi"%string, 958);
   ("omicron"%string, 959); ("pi"%string, 960); ("rho"%string, 961); ("sigmaf"%string, 962); ("sigma"%string, 963); ("tau"%string, 964); ("upsilon"%string, 965);
   ("phi"%string, 966); ("chi"%string, 967); ("psi"%string, 968); ("omega"%string, 969); ("thetasym"%string, 977); ("upsih"%string, 978); ("piv"%string, 982);
   ("ensp"%string, 8194); ("emsp"%string, 8195); ("thinsp"%string, 8201); ("zwnj"%string, 8204); ("zwj"%string, 8205); ("lrm"%string, 8206); ("rlm"%string, 8207);
   ("ndash"%string, 8211); ("mdash"%string, 8212); ("lsquo"%string, 8216); ("rsquo"%string, 8217); ("sbquo"%string, 8218); ("ldquo"%string, 8220);
   ("rdquo"%string, 8221); ("bdquo"%string, 8222); ("dagger"%string, 8224); ("Dagger"%string, 8225); ("bull"%string, 8226); ("hellip"%string, 8230);
   ("permil"%string, 8240); ("prime"%string, 8242); ("Prime"%string, 8243); ("lsaquo"%string, 8249); ("rsaquo"%string, 8250); ("oline"%string, 8254);
   ("frasl"%string, 8260); ("euro"%string, 8364); ("image"%string, 8465); ("weierp"%string, 8472); ("real"%string, 8476); ("trade"%string, 8482);
   ("alefsym"%string, 8501); ("larr"%string, 8592); ("uarr"%string, 8593); ("rarr"%string, 8594); ("darr"%string, 8595); ("harr"%string, 8596);
   ("crarr"%string, 8629); ("lArr"%string, 8656); ("uArr"%string, 8657); ("rArr"%string, 8658); ("dArr"%string, 8659); ("hArr"%string, 8660); ("forall"%string, 8704);
   ("part"%string, 8706); ("exist"%string, 8707); ("empty"%string, 8709); ("nabla"%string, 8711); ("isin"%string, 8712); ("notin"%string, 8713); ("ni"%string, 8715);
   ("prod"%string, 8719); ("sum"%string, 8721); ("minus"%string, 8722); ("lowast"%string, 8727); ("radic"%string, 8730); ("prop"%string, 8733);
   ("infin"%string, 8734); ("ang"%string, 8736); ("and"%string, 8743); ("or"%string, 8744); ("cap"%string, 8745); ("cup"%string, 8746); ("int"%string, 8747);
   ("there4"%string, 8756); ("sim"%string, 8764); ("cong"%string, 8773); ("asymp"%string, 8776); ("ne"%string, 8800); ("equiv"%string, 8801); ("le"%string, 8804);
   ("ge"%string, 8805); ("sub"%string, 8834); ("sup"%string, 8835); ("nsub"%string, 8836); ("sube"%string, 8838); ("supe"%string, 8839); ("oplus"%string, 8853);
   ("otimes"%string, 8855); ("perp"%string, 8869); ("sdot"%string, 8901); ("lceil"%string, 8968); ("rceil"%string, 8969); ("lfloor"%string, 8970);
   ("rfloor"%string, 8971); ("lang"%string, 9001); ("rang"%string, 9002); ("loz"%string, 9674); ("spades"%string, 9824); ("clubs"%string, 9827);
   ("hearts"%string, 9829); ("diams"%string, 9830)].
Fixpoint entity_value (l : list (str * N)) (name : str) : option N :=
  match l with
  | [] => None
  | (n, c) :: l' => if str_eqb n name then Some c else entity_value l' name
  end.

(** The character meant by the text between '&' and ';' (HTML 4.01, 5.3; XML
    1.0, 4.1).  apos is an entity of XML only. *)
Definition reference (xml : bool) (name : str) : option N :=
  let num base hex s :=
    match s with
    | [] => None
    | _ => match number base hex 0 s with
           | Some c => if xml_char c then Some c else None
           | None => None
           end
    end in
  if prefixb (lit "#x") name then num 16 true (skipn 2 name)
  else if prefixb (lit "#") name then num 10 false (skipn 1 name)
  else if xml && str_eqb name (lit "apos") then Some 39
  else entity_value entity_list name.

Definition ref_char (c : N) : bool := between 48 57 c || between 65 90 c || between 97 122 c || (c =? 35).
(** What a reference without semicolon or an unknown one stands for in HTML. *)
Definition loose (name : str) : str := match reference false name with Some c => [c] | None => 38 :: name end.

(** Replace the references; [bad]: characters that must not stand there
    literally; [f] is applied to literal characters.  [ref]: the (reversed) text
    since a '&'. *)
Fixpoint unescape (xml : bool) (bad : N -> bool) (f : N -> N) (ref : option str) (s : str) : option str :=
  match s, ref with
  | [], None => Some []
  | [], Some name => if xml then None else Some (loose (rev name))
  | c :: s', None =>
    if c =? 38 then unescape xml bad f (Some []) s'
    else if bad c then None
    else option_map (cons (f c)) (unescape xml bad f None s')
  | c :: s', Some name =>
    if c =? 59 then
      match reference xml (rev name) with
      | Some x => option_map (cons x) (unescape xml bad f None s')
      | None => if xml then None else option_map (app (38 :: rev name ++ [59])) (unescape xml bad f None s')
      end
    else if ref_char c then unescape xml bad f (Some (c :: name)) s'
    else if xml then None
    else option_map (app (loose (rev name)))
           (if c =? 38 then unescape xml bad f (Some []) s'
            else if bad c then None
            else option_map (cons (f c)) (unescape xml bad f None s'))
  end.

(** Text: XML forbids ']]>', this reader every literal '>'. *)
Definition text_bad (xml : bool) (c : N) : bool := xml && ((c =? 62) || negb (xml_char c)).
(** Attribute values: XML forbids '<'; literal white space becomes a space. *)
Definition att_bad (xml : bool) (c : N) : bool := xml && ((c =? 60) || negb (xml_char c)).
Definition read_text (xml : bool) (s : str) : option str := unescape xml (text_bad xml) (fun c => c) None s.
Definition read_value (xml : bool) (s : str) : option str := unescape xml (att_bad xml) attr_norm None s.

(** ** Markup *)

(** Attributes up to '>' or, in XHTML, '/>' (the boolean).  In HTML a name
    alone is an attribute whose value is the name. *)
Fixpoint tag_attrs (xml : bool) (fuel : nat) (s : str) : option (list (str * str) * bool * str) :=
  match fuel with
  | O => None
  | S fuel' =>
    let (w, s1) := span ws s in
    if prefixb (lit ">") s1 then Some ([], false, skipn 1 s1)
    else if xml && prefixb (lit "/>") s1 then Some ([], true, skipn 2 s1)
    else
      match w with
      | [] => None
      | _ =>
        match read_name s1 with
        | None => None
        | Some (n, s2) =>
          match skip_ws s2 with
          | 61 :: s3 =>
            match read_literal (skip_ws s3) with
            | None => None
            | Some (l, s4) =>
              match read_value xml l, tag_attrs xml fuel' s4 with
              | Some v, Some (atts, e, r) => Some ((n, v) :: atts, e, r)
              | _, _ => None
              end
            end
          | _ =>
            if xml then None
            else match tag_attrs xml fuel' s2 with
                 | Some (atts, e, r) => Some ((n, n) :: atts, e, r)
                 | None => None
                 end
          end
        end
      end
  end.

(** One piece of markup, after its '<'. *)
Definition markup (xml : bool) (s : str) : option (list token * str) :=
  if prefixb (lit "!--") s then
    match break_sub (lit "--") (skipn 3 s) with
    | Some (d, 62 :: r) => if forallb xml_char d then Some ([TComment d], r) else None
    | _ => None
    end
  else if prefixb (lit "?") s then
    let close := if xml then lit "?>" else lit ">" in
    match read_name (skipn 1 s) with
    | Some (t, s1) =>
      if xml && str_eqb (lower t) (lit "xml") then None
      else if prefixb close s1 then Some ([TPI t []], skipn (length close) s1)
      else match need_ws s1 with
           | None => None
           | Some s2 =>
             match break_sub close s2 with
             | Some (d, r) => if forallb xml_char d then Some ([TPI t d], r) else None
             | None => None
             end
           end
    | None => None
    end
  else if prefixb (lit "/") s then
    match read_name (skipn 1 s) with
    | Some (n, s1) => match skip_ws s1 with 62 :: r => Some ([TEnd n], r) | _ => None end
    | None => None
    end
  else
    match read_name s with
    | Some (n, s1) =>
      match tag_attrs xml (S (length s1)) s1 with
      | Some (atts, e, r) =>
        if negb xml || nodup_names (map fst atts)
        then Some (if e then [TStart n atts; TEnd n] else [TStart n atts], r)
        else None
      | None => None
      end
    | None => None
    end.

(** HTML 4.01: elements with declared content EMPTY (index of elements), and
    with CDATA content (18.2.1, 14.2.3), which ends at '</' (B.3.2). *)
Definition one_of (l : list string) (s : str) : bool := existsb (fun x => str_eqb (lit x) s) l.
Definition empty_element (name : str) : bool :=
  one_of ["area"; "base"; "basefont"; "br"; "col"; "frame"; "hr"; "img"; "input"; "isindex"; "link"; "meta"; "param"]%string
         (lower name).
Definition cdata_element (name : str) : bool := one_of ["script"; "style"]%string (lower name).
Definition cdata_content (xml : bool) (toks : list token) (r : str) : list token * str :=
  match toks with
  | [TStart n a] =>
    if negb xml && cdata_element n then
      match break_sub (lit "</") r with
      | Some (d, r') => ([TStart n a; TText d], lit "</" ++ r')
      | None => ([TStart n a; TText r], [])
      end
    else (toks, r)
  | _ => (toks, r)
  end.

Fixpoint tokens (xml : bool) (fuel : nat) (s : str) : option (list token) :=
  match fuel with
  | O => None
  | S fuel' =>
    let (run, s1) := span (fun c => negb (c =? 60)) s in
    match read_text xml run with
    | None => None
    | Some t =>
      match s1 with
      | [] => Some [TText t]
      | _ :: s2 =>
        match markup xml s2 with
        | Some (toks0, r0) =>
          let (toks, r) := cdata_content xml toks0 r0 in
          match tokens xml fuel' r with
          | Some rest => Some (TText t :: toks ++ rest)
          | None => None
          end
        | None => None
        end
      end
    end
  end.

(** Does the end tag of [b] close the element [a]? *)
Definition closes (xml : bool) (a b : str) : bool := if xml then str_eqb a b else str_eqb (lower a) (lower b).

(** Content up to an end tag (returned with what follows it) or, at the top,
    up to the end. *)
Fixpoint nodes (xml : bool) (fuel : nat) (top : bool) (toks : list token) : option (list rnode * option str * list token) :=
  match fuel with
  | O => None
  | S fuel' =>
    let cons_then n rest :=
      match nodes xml fuel' top rest with
      | Some (l, e, r) => Some (n :: l, e, r)
      | None => None
      end in
    match toks with
    | [] => if top then Some ([], None, []) else None
    | TText t :: rest =>
      match nodes xml fuel' top rest with
      | Some (l, e, r) => Some (add_text t l, e, r)
      | None => None
      end
    | TComment d :: rest => cons_then (RComment d) rest
    | TPI t d :: rest => cons_then (RPI t d) rest
    | TDoctype _ _ _ :: _ => None
    | TEnd n :: rest => if top then None else Some ([], Some n, rest)
    | TStart n atts :: rest =>
      if negb xml && empty_element n then cons_then (RElem n atts []) rest
      else
        match nodes xml fuel' false rest with
        | Some (kids, Some m, rest') => if closes xml n m then cons_then (RElem n atts kids) rest' else None
        | _ => None
        end
    end
  end.

(** Read the content of an entity. *)
Definition read_page (xml : bool) (s : str) : option (list rnode) :=
  let s' := norm_eol s in
  match tokens xml (S (length s')) s' with
  | Some toks =>
    match nodes xml (S (length toks)) true toks with
    | Some (l, _, _) => Some l
    | None => None
    end
  | None => None
  end.

(** ** What the calls made on a printer mean *)

(** A namespace declaration as an attribute. *)
Definition declaration (d : option str * str) : str * str :=
  (match fst d with Some (c :: p) => lit "xmlns:" ++ (c :: p) | _ => lit "xmlns" end, snd d).

(** Attributes with the elements they belong to. *)
Definition listed (table : list (string * list string)) (element attr : str) : bool :=
  existsb (fun row => str_eqb (lit (fst row)) attr && one_of (snd row) element) table.
(** HTML 4.01, index of attributes: boolean attributes (and COMPACT on LI). *)
Definition boolean_attribute (element attr : str) : bool :=
  listed [("checked", ["input"]); ("compact", ["dir"; "dl"; "menu"; "ol"; "ul"; "li"]); ("declare", ["object"]);
    ("defer", ["script"]); ("disabled", ["button"; "input"; "optgroup"; "option"; "select"; "textarea"]);
    ("ismap", ["img"; "input"]); ("multiple", ["select"]); ("nohref", ["area"]); ("noresize", ["frame"]);
    ("noshade", ["hr"]); ("nowrap", ["td"; "th"]); ("readonly", ["textarea"; "input"]); ("selected", ["option"])]%string
    (lower element) (lower attr).
(** Attributes of type %URI (HTML 4.01, index of attributes). *)
Definition uri_table : list (string * list string) :=
  [("action", ["form"]); ("background", ["body"]); ("cite", ["blockquote"; "q"; "del"; "ins"]); ("classid", ["object"]);
   ("codebase", ["object"; "applet"]); ("data", ["object"]); ("href", ["a"; "area"; "link"; "base"]);
   ("longdesc", ["img"; "frame"; "iframe"]); ("profile", ["head"]); ("src", ["script"; "input"; "frame"; "iframe"; "img"]);
   ("usemap", ["img"; "input"; "object"])]%string.
Definition uri_attribute (element attr : str) : bool := listed uri_table (lower element) (lower attr).
(** XHTML 1.0: also the attributes whose value is a list of URIs, a fragment
    name (HTML 4.01, B.2.1) or reserved for a URI. *)
Definition xhtml_uri_attribute (element attr : str) : bool :=
  listed uri_table element attr ||
  listed [("archive", ["object"]); ("for", ["script"]); ("name", ["a"]);
    ("datasrc", ["button"; "div"; "input"; "object"; "select"; "span"; "table"; "textarea"])]%string element attr.

(** HTML 4.01, B.2.1: each byte of the UTF-8 form of a non-ASCII character as
    %HH. *)
Definition hex (n : N) : N := nth (N.to_nat n) (lit "0123456789ABCDEF") 0.
Definition percent (b : N) : str := [37; hex (b / 16); hex (b mod 16)].
Definition uri_escaped (v : str) : str := flat_map (fun c => if c <? 128 then [c] else flat_map percent (utf8_1 c)) v.

(** What an attribute of an HTML element means: a boolean attribute set to its
    name, in any case, has its name as value; [low] is Python's lower. *)
Definition html_meaning (low : str -> str) (element : str) (a : str * str) : str * str :=
  if boolean_attribute element (fst a) then
    (fst a, if str_eqb (low (snd a)) (lower (fst a)) then fst a else snd a)
  else if uri_attribute element (fst a) then (fst a, uri_escaped (snd a))
  else a.
Definition xhtml_meaning (element : str) (a : str * str) : str * str :=
  if xhtml_uri_attribute element (fst a) then (fst a, uri_escaped (snd a)) else a.

Definition xhtml_ns : str := lit "http://www.w3.org/1999/xhtml".
Definition in_xhtml (ns : option str) : bool := match ns with Some u => str_eqb u xhtml_ns | None => false end.

Fixpoint html_page (low : str -> str) (c : call) : rnode :=
  match c with
  | CElem _ q d a k => RElem q (map declaration d ++ map (html_meaning low q) a) (map (html_page low) k)
  | CText s => RText s
  | CComment s => RComment s
  | CPI t d => RPI t d
  end.
Fixpoint xhtml_page (c : call) : rnode :=
  match c with
  | CElem ns q d a k =>
    RElem q (map declaration d ++ (if in_xhtml ns then map (xhtml_meaning q) a else a)) (map xhtml_page k)
  | CText s => RText s
  | CComment s => RComment s
  | CPI t d => RPI t d
  end.

(** ** The calls in scope *)

(** unicode.lower: what it does to ASCII. *)
Definition ascii (s : str) : Prop := Forall (fun c => c < 128) s.
Definition lowers (low : str -> str) : Prop :=
  (forall s, ascii s -> low s = lower s).

(** Character data of this model: characters of XML other than SMALL TILDE. *)
Definition data (s : str) : Prop := chars s /\ ~ In 732 s.
(** Content of SCRIPT and STYLE that needs no escape. *)
Definition plain_script (s : str) : Prop :=
  Forall (fun c => (c = 9 \/ c = 10 \/ 32 <= c <= 126) /\ c <> 60 /\ c <> 62 /\ c <> 38) s.

(** HTML: elements in no namespace, with ASCII names; EMPTY elements without
    content; no '>' in processing instructions. *)
Definition html_pi_ok (t d : str) : Prop :=
  is_name t = true /\ chars d /\ ~ In 13 d /\ ~ In 62 d /\ match d with [] => True | c :: _ => ws c = false end.
Inductive html_ok : call -> Prop :=
| ho_text : forall s, data s -> html_ok (CText s)
| ho_comment : forall s, legal_comment s -> html_ok (CComment s)
| ho_pi : forall t d, html_pi_ok t d -> html_ok (CPI t d)
| ho_elem : forall q d a k, is_name q = true -> ascii q ->
    Forall (fun x => is_name (fst (declaration x)) = true /\ data (snd x)) d ->
    Forall (fun x => is_name (fst x) = true /\ ascii (fst x) /\ data (snd x)) a ->
    (empty_element q = true -> k = []) ->
    (cdata_element q = true -> Forall (fun c => exists s, c = CText s /\ plain_script s) k) ->
    Forall html_ok k ->
    html_ok (CElem None q d a k).

(** XHTML: no '<' in attribute values, distinct attribute names. *)
Inductive xhtml_ok : call -> Prop :=
| xo_text : forall s, data s -> xhtml_ok (CText s)
| xo_comment : forall s, legal_comment s -> xhtml_ok (CComment s)
| xo_pi : forall t d, legal_pi t d -> xhtml_ok (CPI t d)
| xo_elem : forall ns q d a k, is_name q = true ->
    Forall (fun x => is_name (fst x) = true /\ data (snd x) /\ ~ In 60 (snd x)) (map declaration d ++ a) ->
    NoDup (map fst (map declaration d ++ a)) ->
    Forall xhtml_ok k ->
    xhtml_ok (CElem ns q d a k).

(** XHTML elements that XHTML 1.0 appendix C.2 wants minimized. *)
Definition xhtml_empty (ns : option str) (q : str) : bool :=
  in_xhtml ns &&
  one_of ["area"; "base"; "basefont"; "br"; "col"; "frame"; "hr"; "img"; "input"; "isindex"; "link"; "meta"; "param"]%string q.
(** No such element is empty. *)
Inductive none_empty : call -> Prop :=
| ne_text : forall s, none_empty (CText s)
| ne_comment : forall s, none_empty (CComment s)
| ne_pi : forall t d, none_empty (CPI t d)
| ne_elem : forall ns q d a k, (xhtml_empty ns q = true -> k <> []) -> Forall none_empty k ->
    none_empty (CElem ns q d a k).

(** The strings that are written as they are. *)
Fixpoint raw (c : call) : list str :=
  match c with
  | CElem _ q d a k => q :: map (fun x => fst (declaration x)) d ++ map fst a ++ flat_map raw k
  | CText _ => []
  | CComment s => [s]
  | CPI t d => [t; d]
  end.

(** ** Indentation *)

(** Elements that stay in the line, elements whose content is kept, and whether
    an end tag may go to a new line after a text, if it could before it. *)
Record layout := {
  in_line : option str -> str -> bool;
  kept : option str -> str -> bool;
  after_text : bool -> str -> bool
}.
Definition inline_names : list string :=
  ["tt"; "i"; "b"; "u"; "s"; "strike"; "big"; "small"; "em"; "strong"; "dfn"; "code"; "samp"; "kbd"; "var"; "cite";
   "abbr"; "acronym"; "a"; "img"; "applet"; "object"; "font"; "basefont"; "script"; "map"; "q"; "sub"; "sup"; "span";
   "bdo"; "iframe"; "input"; "select"; "textarea"; "label"; "button"]%string.
Definition kept_names : list string := ["script"; "style"; "pre"; "textarea"; "xmp"]%string.
Definition html_layout : layout :=
  {| in_line := fun ns q => match ns with None => one_of inline_names (lower q) || one_of ["br"]%string (lower q) | Some _ => false end;
     kept := fun ns q => match ns with None => one_of kept_names (lower q) | Some _ => false end;
     after_text := fun _ s => forallb ws s |}.
Definition xhtml_layout : layout :=
  {| in_line := fun ns q => in_xhtml ns && one_of inline_names q;
     kept := fun ns q => in_xhtml ns && one_of kept_names q;
     after_text := fun b _ => b |}.

Definition new_line (depth : nat) : str := 10 :: repeat 32 (2 * depth).

(** Is [c] put on a line of its own?  May an end tag that follows [c] be? *)
Definition own_line (L : layout) (c : call) : bool :=
  match c with CElem ns q _ _ _ => negb (in_line L ns q) | CText _ => false | _ => true end.
Definition end_line (L : layout) (e : bool) (c : call) : bool :=
  match c with CElem ns q _ _ _ => negb (in_line L ns q) | CText s => after_text L e s | _ => true end.

(** The calls with line breaks followed by two spaces for each open element
    added: before the children of an element which go on a line of their own,
    and before its end tag, unless the element is an in-line one or it or one of
    its ancestors is kept. *)
Fixpoint indented (L : layout) (depth : nat) (keep : bool) (c : call) : call :=
  match c with
  | CElem ns q d a k =>
    let keep' := keep || kept L ns q in
    let free := negb (in_line L ns q) && negb keep' in
    CElem ns q d a
      ((fix go (e : bool) (l : list call) : list call :=
          match l with
          | [] => if free && e then [CText (new_line depth)] else []
          | x :: l' =>
            (if free && own_line L x then [CText (new_line (S depth))] else []) ++
            indented L (S depth) keep' x :: go (end_line L e x) l'
          end) false k)
  | _ => c
  end.

(** The words of a page: its text, comments and processing instructions left
    out, split at white space. *)
Fixpoint text_of (n : rnode) : str :=
  match n with
  | RText s => s
  | RElem _ _ k => flat_map text_of k
  | _ => []
  end.
Fixpoint words (cur : str) (s : str) : list str :=
  match s with
  | [] => match cur with [] => [] | _ => [rev cur] end
  | c :: s' => if ws c then match cur with [] => words [] s' | _ => rev cur :: words [] s' end else words (c :: cur) s'
  end.
Definition words_of (l : list rnode) : list str := words [] (flat_map text_of l).

(** The same calls without namespace declarations. *)
Fixpoint undeclared (c : call) : call :=
  match c with
  | CElem ns q d a k => CElem ns q [] a (map undeclared k)
  | _ => c
  end.
(** Only elements in a namespace carry declarations. *)
Inductive null_undeclared : call -> Prop :=
| nu_elem : forall ns q d a k, (ns = None -> d = []) -> Forall null_undeclared k -> null_undeclared (CElem ns q d a k)
| nu_text : forall s, null_undeclared (CText s)
| nu_comment : forall s, null_undeclared (CComment s)
| nu_pi : forall t d, null_undeclared (CPI t d).

(** Percent-decoding (RFC 3986, 2.1) of a sequence of bytes. *)
Definition hex_value (c : N) : option N :=
  if between 48 57 c then Some (c - 48) else if between 65 70 c then Some (c - 55) else if between 97 102 c then Some (c - 87) else None.
Fixpoint unquote (s : list N) : list N :=
  match s with
  | [] => []
  | c :: t =>
    if c =? 37 then
      match t with
      | a :: b :: r => match hex_value a, hex_value b with
                       | Some x, Some y => 16 * x + y :: unquote r
                       | _, _ => c :: unquote t
                       end
      | _ => c :: unquote t
      end
    else c :: unquote t
  end.

(** ** Trees of the document model *)

(** Nothing in a namespace; the rest as in [html_ok]. *)
Inductive html_tree : node -> Prop :=
| ht_text : forall s, data s -> html_tree (NText s)
| ht_comment : forall s, legal_comment s -> html_tree (NComment s)
| ht_pi : forall t d, html_pi_ok t d -> html_tree (NPI t d)
| ht_elem : forall q attrs k, is_name q = true -> ascii q ->
    Forall (fun x => a_ns x = None /\ is_name (a_qname x) = true /\ ascii (a_qname x) /\ data (a_value x)) attrs ->
    NoDup (map a_qname attrs) ->
    (empty_element q = true -> k = []) ->
    (cdata_element q = true -> Forall (fun c => exists s, c = NText s /\ plain_script s) k) ->
    Forall html_tree k ->
    html_tree (NElem None q [] attrs k).
Fixpoint raw_tree (n : node) : list str :=
  match n with
  | NElem _ q _ attrs k => q :: map a_qname attrs ++ flat_map raw_tree k
  | NText _ => []
  | NComment s => [s]
  | NPI t d => [t; d]
  end.
(** The page of a tree; the order of attributes is not significant. *)
Inductive tree_page (low : str -> str) : node -> rnode -> Prop :=
| tp_text : forall s, tree_page low (NText s) (RText s)
| tp_comment : forall s, tree_page low (NComment s) (RComment s)
| tp_pi : forall t d, tree_page low (NPI t d) (RPI t d)
| tp_elem : forall ns q decls attrs k atts kids,
    Permutation atts (map (fun x => html_meaning low q (a_qname x, a_value x)) attrs) ->
    Forall2 (tree_page low) k kids ->
    tree_page low (NElem ns q decls attrs k) (RElem q atts kids).
