(** * Model of SAX parsers that are generators

    /repo/lib/src/expat/sax_handler.c, expat.c and lib/xmlparse.c: with the generator
    feature, a handler hands out a value by setting the yield-result property; this
    suspends the parser, and asking for the next value resumes it. *)
From Coq Require Import NArith String List Bool.
From Verif Require Import PyStr PyErr.
Import ListNotations.
Open Scope N_scope.

(** A call of a handler: which one it is, and the values it sets as yield-result,
    one after the other.  Handlers let exceptions through and have no other effect. *)
Record call := { c_name : N; c_yields : list N }.
(** A well-formed document, as the calls it leads to.  A group is what is called between
    two places at which expat looks whether it was stopped: text that was
    buffered goes with the tag after it, and an empty element is one group. *)
Record document := { d_start : call; d_groups : list (list call); d_end : call }.
(** XML_ParsingStatus *)
Inductive status := Initialized | Parsing | Suspended | Finished.
(** The parser: the status of expat, yield_result, the handlers called so far and
    what is left of the document. *)
Record reader := { r_status : status; r_yield : option N; r_log : list N; r_rest : list (list call) }.
(** SystemError, process_error, expat.c:1482-1490 *)
Definition system_error : exn := OtherError 174.
(** XML_StopParser with resumable = 1, lib/xmlparse.c:1693-1721; parameter entities are left out. *)
Definition stop_resumable (s : status) : option status :=
  match s with Suspended => None | Finished => None | _ => Some Suspended end.
(** setProperty of yield-result, sax_handler.c:1882-1892, and ExpatReader_Suspend,
    expat.c:4313-4324: an error stops the parser. *)
Definition set_yield (v : N) (r : reader) : reader * option exn :=
  match stop_resumable (r_status r) with
  | Some s => ({| r_status := s; r_yield := Some v; r_log := r_log r; r_rest := r_rest r |}, None)
  | None => ({| r_status := Finished; r_yield := Some v; r_log := r_log r; r_rest := r_rest r |}, Some system_error)
  end.
Fixpoint set_yields (vs : list N) (r : reader) : reader * option exn :=
  match vs with
  | [] => (r, None)
  | v :: vs' => match set_yield v r with (r, None) => set_yields vs' r | e => e end
  end.
(** The call of a handler *)
Definition do_call (c : call) (r : reader) : reader * option exn :=
  set_yields (c_yields c) {| r_status := r_status r; r_yield := r_yield r; r_log := r_log r ++ [c_name c]; r_rest := r_rest r |}.
(** The calls of a group: an exception stops the parser and takes its handlers away,
    expat.c:806-841 (_stop_parsing). *)
Fixpoint do_group (g : list call) (r : reader) : reader * option exn :=
  match g with
  | [] => (r, None)
  | c :: g' => match do_call c r with (r, None) => do_group g' r | e => e end
  end.
(** continue_parsing, expat.c:1530-1594, with XML_ParseBuffer, lib/xmlparse.c:1563-1612: to
    the end of the document or to the group that suspends the parser.  How the document is cut into buffers makes no
    difference here. *)
Fixpoint run (gs : list (list call)) (r : reader) : reader * option exn :=
  match gs with
  | [] => ({| r_status := Finished; r_yield := r_yield r; r_log := r_log r; r_rest := [] |}, None)
  | g :: gs' =>
    match do_group g {| r_status := r_status r; r_yield := r_yield r; r_log := r_log r; r_rest := gs' |} with
    | (r, None) => match r_status r with Suspended => (r, None) | _ => run gs' r end
    | e => e
    end
  end.
(** parse, sax_handler.c:1630-1660, and start_parsing, expat.c:1644-1676; XML_GetBuffer refuses a
    parser that is suspended (lib/xmlparse.c:1617-1620). *)
Definition parse (d : document) : result reader :=
  match do_call (d_start d) {| r_status := Initialized; r_yield := None; r_log := []; r_rest := d_groups d |} with
  | (_, Some e) => Err e
  | (r, None) =>
    match r_status r with
    | Suspended => Err system_error
    | _ =>
      match run (d_groups d) {| r_status := Parsing; r_yield := r_yield r; r_log := r_log r; r_rest := r_rest r |} with
      | (_, Some e) => Err e
      | (r, None) =>
        match r_status r with
        | Suspended => Ok r
        | _ => match do_call (d_end d) r with (_, Some e) => Err e | (r, None) => Ok r end
        end
      end
    end
  end.
(** ExpatReader_GetParsingStatus, expat.c:4388-4397 *)
Definition parsing (r : reader) : bool :=
  match r_status r with Parsing => true | Suspended => true | _ => false end.
(** ExpatReader_Resume, expat.c:4328-4359, with XML_ResumeParser, lib/xmlparse.c:1723-1759 *)
Definition resume (r : reader) : reader * option exn :=
  run (r_rest r) {| r_status := Parsing; r_yield := r_yield r; r_log := r_log r; r_rest := r_rest r |}.
(** saxgen_iternext, sax_handler.c:1219-1239: the next value, or StopIteration. *)
Definition next (r : reader) : reader * result (option N) :=
  match (if parsing r then match r_yield r with None => resume r | Some _ => (r, None) end else (r, None)) with
  | (r, Some e) => (r, Err e)
  | (r, None) => ({| r_status := r_status r; r_yield := None; r_log := r_log r; r_rest := r_rest r |}, Ok (r_yield r))
  end.
