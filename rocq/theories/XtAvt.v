(** * Attribute value templates and the types of attributes

    /repo/lib/xslt/expressions/avt.py, avt.bgen (and the lexer of avt.c that is
    generated from it) and /repo/lib/xslt/tree/attribute_types.py.

    The XPath expression between two braces is parsed by [parse] and evaluated
    as a string by [ev]: both are arguments of everything that follows. *)
From Coq Require Import NArith String List Bool.
From Verif Require Import PyStr PyErr XsModel.
Import ListNotations.
Local Open Scope N_scope.

(** XsltError codes, xslt/__init__.py:36-51. *)
Definition InvalidChar : exn := OtherError 74.
Definition InvalidNs : exn := OtherError 76.
Definition InvalidId : exn := OtherError 77.
Definition InvalidQName : exn := OtherError 78.
Definition InvalidNCName : exn := OtherError 79.
Definition InvalidPrefix : exn := OtherError 80.
Definition InvalidNmtoken : exn := OtherError 81.
Definition AvtSyntax : exn := OtherError 83.
Definition InvalidAvt : exn := OtherError 85.

Definition is_brace (c : N) : bool := (c =? 123) || (c =? 125).

(** ** The lexer and the grammar *)

(** The tokens of an expression: the lexer leaves the XPath states at the first
    closing brace that starts a token (avt.bgen:118-121, avt.c:4271-4290).  The
    only XPath token that can hold a brace is a literal
    (xpath_lexer_patterns.bgen.frag:63), which runs to the next quote of the same
    kind; a quote without a second one is returned as a token of its own by the
    default rule (avt.c:4120-4127), which no rule of the grammar accepts.
    [open] is the quote of the literal the lexer is in.  The result is the text of
    the expression and what follows the brace.
    Simplified: the text is cut out and parsed as a whole, where the code
    parses token by token. *)
Fixpoint cut_expr (open : option N) (s : str) : option (str * str) :=
  match s with
  | [] => None
  | c :: r =>
      let go o := match cut_expr o r with Some (t, rest) => Some (c :: t, rest) | None => None end in
      match open with
      | Some q => if c =? q then go None else go (Some q)
      | None => if c =? 125 then Some ([], r) else if (c =? 39) || (c =? 34) then go (Some c) else go None
      end
  end.

Section Avt.
Context {E C : Type}.
Variable parse : str -> option E.
Variable ev : E -> C -> result str.

Inductive part := Plain (s : str) | Parsed (e : E).

(** The whole parser: avt.bgen:36-61 (Avt), 63-75 (PlainPart), 77-88 (ParsedPart) and
    the lexer state AVT, 103-116.  [fuel] is more than the length of the text. *)
Fixpoint parse_avt (fuel : nat) (s : str) : result (list part) :=
  match fuel with
  | O => Err (OtherError 3)
  | S fuel =>
      match s with
      | [] => Ok []
      | c :: r =>
          if is_brace c then
            match r with
            | d :: r2 =>
                if d =? c then rmap (cons (Plain [c])) (parse_avt fuel r2)
                else parse_single fuel c r
            | [] => parse_single fuel c r
            end
          else let (run, rest) := span (fun x => negb (is_brace x)) s in rmap (cons (Plain run)) (parse_avt fuel rest)
      end
  end
(** A single brace: the closing one starts no part, the opening one an expression. *)
with parse_single (fuel : nat) (c : N) (r : str) : result (list part) :=
  match fuel with
  | O => Err (OtherError 3)
  | S fuel =>
      if c =? 125 then Err AvtSyntax
      else match cut_expr None r with
           | None => Err AvtSyntax
           | Some (t, rest) =>
               match parse t with
               | None => Err AvtSyntax
               | Some e => rmap (cons (Parsed e)) (parse_avt fuel rest)
               end
           end
  end.

(** The format and the arguments, avt.py:22-30. *)
Definition fmt_part (p : part) : str :=
  match p with Plain s => replace1 37 [37; 37] s | Parsed _ => [37; 115] end.
Definition args_of (ps : list part) : list E := flat_map (fun p => match p with Plain _ => [] | Parsed e => [e] end) ps.

(** The operator % of Python on a Unicode string and a tuple of strings, for the only
    conversions in use: %% and %s. *)
Fixpoint py_format (fmt : str) (args : list str) : result str :=
  match fmt with
  | [] => match args with [] => Ok [] | _ => Err TypeError end
  | c :: r =>
      if c =? 37 then
        match r with
        | [] => Err ValueError
        | d :: r2 =>
            if d =? 37 then rmap (cons 37) (py_format r2 args)
            else if d =? 115 then
              match args with [] => Err TypeError | a :: rest => rmap (app a) (py_format r2 rest) end
            else Err ValueError
        end
      else rmap (cons c) (py_format r args)
  end.

Record avt := { a_format : str; a_args : list E }.

(** avt_expression.__init__, avt.py:16-34. *)
Definition avt_init (value : str) : result avt :=
  do ps <- parse_avt (2 * S (length value)) value ;
  let fmt := concat (map fmt_part ps) in
  match args_of ps with
  | [] => do f <- py_format fmt [] ; Ok {| a_format := f; a_args := [] |}
  | args => Ok {| a_format := fmt; a_args := args |}
  end.

(** Evaluation of the arguments from left to right. *)
Fixpoint eval_args (l : list E) (c : C) : result (list str) :=
  match l with [] => Ok [] | e :: r => do v <- ev e c ; do vs <- eval_args r c ; Ok (v :: vs) end.

(** avt_expression.evaluate_as_string, avt.py:36-41. *)
Definition avt_eval (a : avt) (c : C) : result str :=
  match a_args a with
  | [] => Ok (a_format a)
  | args => do vs <- eval_args args c ; py_format (a_format a) vs
  end.

(** ** The types of attributes *)

Inductive atype :=
| TString                       (* attribute_type, string, uri_reference: 25-46, 142-143, 186-193 *)
| TChoice (values : list str)   (* choice: 81-107 *)
| TChar                         (* char: 150-162 *)
| TNamespace                    (* namespace_uri: 200-207 *)
| TId                           (* id: 214-223 *)
| TQName                        (* qname: 230-251 *)
| TRawQName                     (* raw_qname: 258-268 *)
| TNCName                       (* ncname: 275-286 *)
| TPrefix                       (* prefix: 293-306 *)
| TNmtoken.                     (* nmtoken: 313-322 *)

Inductive aval := VNone | VStr (s : str) | VName (ns : option str) (local : str) | VRaw (prefix : option str) (local : str).

Definition nss := list (option str * option str).
Definition opt_eqb (a b : option str) : bool :=
  match a, b with Some x, Some y => str_eqb x y | None, None => true | _, _ => false end.
Definition lookup (m : nss) (p : option str) : option (option str) :=
  option_map snd (find (fun e => opt_eqb (fst e) p) m).

(** The value of a name, 241-250 (the name of the exception class is not defined in the module). *)
Definition qname_value (m : nss) (s : str) : result aval :=
  let (prefix, local) := split_qname s in
  match prefix with
  | None | Some [] => Ok (VName None local)
  | Some p => match lookup m (Some p) with Some ns => Ok (VName ns local) | None => Err NameError end
  end.

(** The method prepare, also known as reprocess, of each class.  [default] is the default of the
    declaration, [m] the namespaces of the element.  The classes number, qname_but_not_ncname and
    token and the expressions are left out. *)
Definition reprocess (t : atype) (default : option str) (m : nss) (value : option str) : result aval :=
  let dflt := match default with Some d => VStr d | None => VNone end in
  match t, value with
  | TQName, None => match default with None => Ok VNone | Some d => qname_value m d end
  | TRawQName, None => match default with None => Ok VNone | Some d => let (p, l) := split_qname d in Ok (VRaw p l) end
  | _, None => Ok dflt
  | TString, Some s => Ok (VStr s)
  (* 93-105: the message for a value that is not allowed has two conversions and gets one
     argument, so building the exception fails (xslt/__init__.py:236-237, lib/__init__.py:26-30). *)
  | TChoice values, Some s => if existsb (str_eqb s) values then Ok (VStr s) else Err TypeError
  | TChar, Some s => if Nat.ltb 1 (length s) then Err InvalidChar else Ok (VStr s)
  | TNamespace, Some s =>
      if str_eqb s (lit "http://www.w3.org/XML/1998/namespace") || str_eqb s (lit "http://www.w3.org/2000/xmlns/") then Err InvalidNs else Ok (VStr s)
  | TId, Some s => match s with [] => Err InvalidId | _ => Ok (VStr s) end
  | TQName, Some s => if is_qname s then qname_value m s else Err InvalidQName
  | TRawQName, Some s => if is_qname s then let (p, l) := split_qname s in Ok (VRaw p l) else Err InvalidQName
  | TNCName, Some s => match s with [] => Err InvalidNCName | _ => if mem 58 s then Err InvalidNCName else Ok (VStr s) end
  | TPrefix, Some s =>
      match s with [] => Err InvalidPrefix | _ => if mem 58 s then Err InvalidPrefix else if str_eqb s (lit "#default") then Ok VNone else Ok (VStr s) end
  | TNmtoken, Some s => match s with [] => Err InvalidNmtoken | _ => Ok (VStr s) end
  end.

(** _avt_constant and _avt_wrapper, 52-78. *)
Inductive prepared := Constant (v : aval) | Wrapper (a : avt).

(** avt.prepare, 118-129: an error of the parser of templates becomes INVALID_AVT. *)
Definition prepare (t : atype) (default : option str) (m : nss) (value : option str) : result prepared :=
  match value with
  | None => rmap Constant (reprocess t default m default)
  | Some s =>
      if negb (mem 123 s) && negb (mem 125 s) then rmap Constant (reprocess t default m (Some s))
      else match avt_init s with
           | Ok a => Ok (Wrapper a)
           | Err e => match e with OtherError 83 => Err InvalidAvt | _ => Err e end
           end
  end.

(** evaluate_as_string: avt.py:36-38 for a constant, attribute_types.py:75-78 for a wrapper. *)
Definition evaluate (t : atype) (default : option str) (m : nss) (p : prepared) (c : C) : result aval :=
  match p with
  | Constant v => Ok v
  | Wrapper a => do s <- avt_eval a c ; reprocess t default m (Some s)
  end.

(** Both, in this order: load the stylesheet, then use the attribute. *)
Definition attribute_value (t : atype) (default : option str) (m : nss) (value : option str) (c : C) : result aval :=
  do p <- prepare t default m value ; evaluate t default m p c.
End Avt.
Arguments part E : clear implicits.
Arguments avt E : clear implicits.
Arguments prepared E : clear implicits.
