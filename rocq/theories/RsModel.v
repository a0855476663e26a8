(** * Model of the resolvers and input sources

    /repo/lib/lib/irihelpers.py and /repo/lib/lib/_inputsource.py.  Opening a
    resource is an effect of which only the URI and the way (file or urllib2) are
    modelled; the errors of the operating system and of the network are not. *)
From Coq Require Import NArith ZArith String List Bool.
From Verif Require Import PyStr PyErr IriModel.
Import ListNotations.
Open Scope N_scope.

(** ** Resolvers *)

(** A pair in the list of authorizations, irihelpers.py:106-111: the condition is a
    callable or a value used for its truth, a constant function here. *)
Record rule := { r_match : str -> bool; r_allow : bool }.
(** resolver, irihelpers.py:34-42 *)
Record resolver := { v_rules : list rule; v_lenient : bool }.
(** irihelpers.py:142 *)
Definition DEFAULT_RESOLVER : resolver := {| v_rules := []; v_lenient := true |}.
(** irihelpers.py:29-31, with HTTPS. *)
Definition SCHEMES : list str := [lit "http"; lit "file"; lit "ftp"; lit "data"; lit "pkgdata"; lit "https"].
Definition DENIED_BY_RULE : N := 300.
(** authorize, irihelpers.py:102-114 *)
Fixpoint authorize (l : list rule) (uri : str) : bool :=
  match l with
  | [] => false
  | r :: l' => if r_match r uri then r_allow r else authorize l' uri
  end.
(** absolutize, irihelpers.py:116-140 *)
Definition v_absolutize (v : resolver) (uriRef baseUri : str) : result str :=
  let baseUri := if v_lenient v && starts_slash baseUri then lit "file://" ++ baseUri else baseUri in
  absolutize uriRef baseUri (Some SCHEMES).
(** How a resource is opened: line 79 (a file) or 96 (urllib2; redirections are not modelled). *)
Inductive opening := OpenFile (uri : str) | OpenUrl (uri : str).
(** What resolve is called with: a string, or a urllib2.Request for a URL. *)
Inductive reference := RString (s : str) | RRequest (url : str).
(** resolve, irihelpers.py:44-100.  For a Request the variable scheme is not
    bound, and line 76 raises UnboundLocalError, a NameError. *)
Definition v_resolve (v : resolver) (uriRef : reference) (baseUri : option str) : result opening :=
  do us <-
    match uriRef with
    | RString s =>
      match baseUri with
      | Some b => do uri <- v_absolutize v s b ; Ok (uri, Some (get_scheme uri))
      | None =>
        match get_scheme s with
        | None => Err ValueError
        | Some sch => if existsb (str_eqb sch) SCHEMES then Ok (s, Some (Some sch)) else Err (IriError UNSUPPORTED_SCHEME)
        end
      end
    | RRequest url => Ok (url, None)
    end ;
  let '(uri, scheme) := us in
  if (match v_rules v with [] => false | _ => true end) && negb (authorize (v_rules v) uri) then Err (IriError DENIED_BY_RULE)
  else
    match scheme with
    | None => Err NameError
    | Some (Some sch) => if str_eqb sch (lit "file") then Ok (OpenFile uri) else Ok (OpenUrl uri)
    | Some None => Ok (OpenUrl uri)
    end.

(** ** scheme_registry_resolver, irihelpers.py:145-188

    [H]: the handlers.  An empty scheme cannot occur. *)
Section Registry.
  Variable H : Type.
  (** A handler is called (line 188), or the resource is opened (line 187). *)
  Inductive dispatch := Handled (h : H) (uri : str) (base : option str) | Opened (o : opening).
  (** self.handlers.get(k), 182 and 185 *)
  Fixpoint handler (l : list (option str * H)) (k : option str) : option H :=
    match l with
    | [] => None
    | (k', h) :: l' =>
      if (match k, k' with None, None => true | Some a, Some b => str_eqb a b | _, _ => false end) then Some h else handler l' k
    end.
  (** Line 180 names a module that is not imported: NameError. *)
  Definition registry_resolve (v : resolver) (handlers : list (option str * H)) (uri : str) (base : option str) : result dispatch :=
    do scheme <-
      match get_scheme uri with
      | Some s => Ok s
      | None =>
        match (match base with Some b => get_scheme b | None => None end) with
        | Some s => Ok s
        | None => Err NameError
        end
      end ;
    match handler handlers (Some scheme) with
    | Some h => Ok (Handled h uri base)
    | None =>
      match handler handlers None with
      | Some h => Ok (Handled h uri base)
      | None => do o <- v_resolve v (RString uri) base ; Ok (Opened o)
      end
    end.
End Registry.
(** facade_resolver, irihelpers.py:192-223: __init__ names default_resolver, which does not exist. *)
Definition facade_resolver : result unit := Err NameError.

(** ** Input sources, _inputsource.py *)
(** The stream of a source: the one given, a StringIO (line 74), or an opened resource. *)
Inductive source := SGiven | SText (s : str) | SOpened (o : opening).
(** The first argument, without input sources, which are returned as they are (line 54). *)
Inductive argument := AStream | AText (s : str) | ARequest (url : str).
Section Inputs.
  (** isxml (see XsModel), os.path.isfile, os_path_to_uri, uuid4().urn *)
  Variable isxml : str -> bool.
  Variable isfile : str -> bool.
  Variable os_path_to_uri : str -> result str.
  Variable fresh_urn : str.
  (** uri or uuid4().urn, 67 and 73 *)
  Definition given (uri : option str) : str := match uri with Some (c :: u) => c :: u | _ => fresh_urn end.
  (** inputsource.__new__, 35-94, for anything but an input source; the stream and
      the base URI.  [v]: the resolver, or the default one. *)
  Definition inputsource (arg : argument) (uri : option str) (v : option resolver) (xmlstring : bool) : result (source * str) :=
    let v := match v with Some v => v | None => DEFAULT_RESOLVER end in
    match arg with
    | ARequest url => do o <- v_resolve v (RRequest url) None ; Ok (SOpened o, url)
    | AStream => Ok (SGiven, given uri)
    | AText [] => Err ValueError
    | AText arg =>
      if xmlstring || isxml arg then Ok (SText arg, given uri)
      else if is_absolute arg && negb (isfile arg) then do o <- v_resolve v (RString arg) None ; Ok (SOpened o, arg)
      else if (N.of_nat (length arg)) <? 1024 then
        do u <- os_path_to_uri arg ; do o <- v_resolve v (RString u) None ; Ok (SOpened o, u)
      else Err ValueError
    end.
  (** resolve, 111-124, of a source with the resolver [v]: a new source is made
      from the reference, and nothing else. *)
  Definition source_resolve (v : resolver) (uriRef : str) (baseUri : option str) : result (source * str) :=
    do u <- match baseUri with Some (c :: b) => v_absolutize v uriRef (c :: b) | _ => Ok uriRef end ;
    inputsource (AText u) None None false.
End Inputs.

(** ** uridict, irihelpers.py:226-285

    Keys are byte strings.  A dictionary is the list of its items. *)

(** _normalizekey, 257-262 *)
Definition normalizekey (key : str) : result str :=
  do p <- normalize_percent_encoding (PyB key) ;
  do k <- normalize_case false (raw p) ;
  Ok (if prefixb (lit "file://localhost/") k then lit "file://" ++ skipn 16 k else k).
Section Dict.
  Variable V : Type.
  (** Python's dict, keys in the order of the list. *)
  Definition dict := list (str * V).
  (** The methods of dict. *)
  Fixpoint d_get (d : dict) (k : str) : option V :=
    match d with [] => None | (k', v) :: d' => if str_eqb k k' then Some v else d_get d' k end.
  Fixpoint d_set (d : dict) (k : str) (v : V) : dict :=
    match d with [] => [(k, v)] | (k', v') :: d' => if str_eqb k k' then (k, v) :: d' else (k', v') :: d_set d' k v end.
  Definition d_del (d : dict) (k : str) : dict := filter (fun e => negb (str_eqb k (fst e))) d.
  (** 264-277 *)
  Definition getitem (d : dict) (key : str) : result V :=
    do k <- normalizekey key ; match d_get d k with Some v => Ok v | None => Err KeyError end.
  Definition setitem (d : dict) (key : str) (v : V) : result dict := do k <- normalizekey key ; Ok (d_set d k v).
  Definition delitem (d : dict) (key : str) : result dict :=
    do k <- normalizekey key ; match d_get d k with Some _ => Ok (d_del d k) | None => Err KeyError end.
  Definition contains (d : dict) (key : str) : result bool :=
    do k <- normalizekey key ; Ok (match d_get d k with Some _ => true | None => false end).
  (** get, setdefault, pop, update and the constructor are those of dict. *)
  Definition get (d : dict) (key : str) : option V := d_get d key.
  Definition construct (items : dict) : dict := fold_left (fun d e => d_set d (fst e) (snd e)) items [].
  (** iteritems, 279-285 *)
  Fixpoint iteritems_ (d : dict) (keys : list str) : result (list (str * V)) :=
    match keys with
    | [] => Ok []
    | k :: keys' => do v <- getitem d k ; do r <- iteritems_ d keys' ; Ok ((k, v) :: r)
    end.
  Definition iteritems (d : dict) : result (list (str * V)) := iteritems_ d (map fst d).
End Dict.
(** get_filename_from_url, 289-291 *)
Definition get_filename_from_url (url : str) : str :=
  hd [] (split1 cQUEST (hd [] (split1 cHASH (last (split1 cSLASH url) [])))).
