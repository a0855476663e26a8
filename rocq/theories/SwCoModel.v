(** * Model: feeding a structure with a cursor (lib/writers/struct.py)

    structwriter.cofeed is a coroutine: it writes up to the cursor element and
    is suspended; what is sent is written there; closing it writes the rest.
    A suspended coroutine is modelled by the printer and the list of what the
    suspended calls, innermost first, still have to do. *)
From Coq Require Import NArith ZArith String List Bool.
From Verif Require Import PyStr PyErr XsModel SerModel SwModel.
Import ListNotations.
Open Scope N_scope.

(** What can be cofed: E (struct.py:427-451), E_CURSOR (454-468), ROOT, and any
    item that is not one of them.  An E without a cursor below is [CElem] too.
    An E_CURSOR is modelled without content: 456-458 ask for at most an attribute
    mapping.  A ROOT is only modelled at the top. *)
Inductive cobj :=
| CItem (o : obj)
| CElem (ns : option str) (qname : str) (atts : list ((option str * str) * str)) (content : list cobj)
| CCursor (ns : option str) (qname : str) (atts : list ((option str * str) * str))
| CRoot (content : list cobj).

(** What the isinstance and truth tests of 294-299 and 312 see of an item. *)
Definition seen (c : cobj) : obj :=
  match c with
  | CItem o => o
  | CElem ns q atts _ | CCursor ns q atts => OE ns q atts []
  | CRoot _ => ORoot []
  end.

(** generator ignored GeneratorExit: a coroutine that yields while it is being
    closed. *)
Definition RuntimeError : exn := OtherError 111.
(** cofeed of something without a cursor: the coroutine ends before its first
    yield and next() (lib/lib/util.py:233-236) raises. *)
Definition StopIteration : exn := OtherError 131.

(** What a suspended call of cofeed does once the call below it is closed. *)
Inductive frame :=
| FCursor (qname : str)
| FElem (prefixes : pdict) (qname : str) (rest : list cobj)
| FRoot (rest : list cobj).

Section Cofeed.
  Variable wide : bool.
  Variable st : style.
  Variable encoding : str.

  (** printer.start_element as cofeed calls it, struct.py:267, 311. *)
  Definition start (new : pdict) (qname : str) (atts : list ((option str * str) * str)) (p : printer) : result printer :=
    start_element wide st qname (map (fun d => (Some (fst d), snd d)) new) (map (fun a => (snd (fst a), Some (snd a))) atts) p.

  (** cofeed up to its first yield or its end, struct.py:229-361; the frames are
      empty when it has ended.  Elements below are cofed with prefixes=None (234,
      315, 329); other items are fed with the prefixes of their element (325, 339);
      other items of ROOT are cofed without prefixes (234), which does what
      feed does (246-247, 343-361). *)
  Fixpoint costart (prefixes : pdict) (c : cobj) (p : printer) : result (printer * list frame) :=
    let run := fix run (pr : pdict) (l : list cobj) (p : printer) : result (printer * list frame * list cobj) :=
      match l with
      | [] => Ok (p, [], [])
      | x :: l' =>
        do r <- match x with
                | CItem o => do p1 <- feed wide st encoding pr o p ; Ok (p1, [])
                | _ => costart [] x p
                end ;
        match snd r with
        | [] => run pr l' (fst r)
        | fs => Ok (fst r, fs, l')
        end
      end in
    match c with
    | CItem o => do p1 <- feed wide st encoding prefixes o p ; Ok (p1, [])
    | CCursor ns qname atts =>
      do p1 <- start (new_prefixes prefixes ns qname []) qname atts p ;
      Ok (p1, [FCursor qname])
    | CElem ns qname atts content =>
      let new := new_prefixes prefixes ns qname (map seen content) in
      do p1 <- start new qname atts p ;
      do r <- match lead_of (map seen content) with
              | Some x => if true_obj x then run (pupdate prefixes new) content p1 else Ok (p1, [], [])
              | None => Ok (p1, [], [])
              end ;
      match r with
      | (p2, [], _) => do p3 <- end_element st qname p2 ; Ok (p3, [])
      | (p2, fs, rest) => Ok (p2, fs ++ [FElem (pupdate prefixes new) qname rest])
      end
    | CRoot content =>
      do p1 <- start_document (canon_of st) encoding (lit "1.0") p ;
      do r <- run [] content p1 ;
      match r with
      | (p2, [], _) => do p3 <- end_document (canon_of st) p2 ; Ok (p3, [])
      | (p2, fs, rest) => Ok (p2, fs ++ [FRoot rest])
      end
    end.
  (** The loops over the content, struct.py:232-242 and 313-339. *)
  Fixpoint run (pr : pdict) (l : list cobj) (p : printer) : result (printer * list frame * list cobj) :=
    match l with
    | [] => Ok (p, [], [])
    | x :: l' =>
      do r <- match x with
              | CItem o => do p1 <- feed wide st encoding pr o p ; Ok (p1, [])
              | _ => costart [] x p
              end ;
      match snd r with
      | [] => run pr l' (fst r)
      | fs => Ok (fst r, fs, l')
      end
    end.

  (** close(): GeneratorExit is raised at every yield from the outside in, each
      handler closes the call below and goes on (struct.py:239-244, 274-277,
      320-321, 334-335, 340).  A further cursor would yield again. *)
  Fixpoint coclose (fs : list frame) (p : printer) : result printer :=
    match fs with
    | [] => Ok p
    | FCursor q :: r => do p1 <- end_element st q p ; coclose r p1
    | FElem pr q rest :: r =>
      do x <- run pr rest p ;
      match x with
      | (p1, [], _) => do p2 <- end_element st q p1 ; coclose r p2
      | _ => Err RuntimeError
      end
    | FRoot rest :: r =>
      do x <- run [] rest p ;
      match x with
      | (p1, [], _) => do p2 <- end_document (canon_of st) p1 ; coclose r p2
      | _ => Err RuntimeError
      end
    end.

  (** w.cofeed(c): the coroutine decorator runs it to the first yield. *)
  Definition cofeed (c : cobj) (p : printer) : result (printer * list frame) :=
    do r <- costart [] c p ;
    match snd r with [] => Err StopIteration | _ => Ok r end.
  (** send(v) reaches E_CURSOR.do, which feeds v without prefixes
      (struct.py:237-238, 272-273, 318-319, 332-333, 461-468). *)
  Definition cosend (v : obj) (r : printer * list frame) : result (printer * list frame) :=
    do p1 <- feed wide st encoding [] v (fst r) ; Ok (p1, snd r).
  Fixpoint cosends (vs : list obj) (r : printer * list frame) : result (printer * list frame) :=
    match vs with
    | [] => Ok r
    | v :: vs' => do r1 <- cosend v r ; cosends vs' r1
    end.
End Cofeed.

(** buf = structencoder(...).cofeed(c); buf.send(v) for every v; buf.close();
    read(), struct.py:112-114, 203-361, 411-424. *)
Definition co_encode (wide indent canonical : bool) (encoding : str) (x : xmlstream) (c : cobj) (vs : list obj) : result (list N) :=
  do st <- get_printer indent canonical ;
  do r <- cofeed wide st encoding c (printer_new x) ;
  do r1 <- cosends wide st encoding vs r ;
  rmap (fun p => x_out (p_x p)) (coclose wide st encoding (snd r1) (fst r1)).
