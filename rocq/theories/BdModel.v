(** * Model of the bindery: XML names as Python attributes

    /repo/lib/bindery/nodes.py (container_mixin, element_base, entity_base,
    bound_element, bound_attribute, element_iterator).  Elements of one document
    that have the same name share a Python class; the class dictionary maps
    Python names to descriptors.  Simplifications: values assigned are Unicode
    strings or objects of a wrong type; the cache xml_pname_cache (which holds
    results of the same computation) and content models (xml_model, empty by
    default) are not modelled. *)
From Coq Require Import NArith ZArith String List Bool Lia Arith.
From Verif Require Import PyStr PyErr.
Import ListNotations.
Open Scope N_scope.

(** A universal name: namespace, local name. *)
Definition name := (option str * str)%type.
Definition ostr_eq (a b : option str) : bool :=
  match a, b with Some x, Some y => str_eqb x y | None, None => true | _, _ => false end.
Definition name_eqb (a b : name) : bool := ostr_eq (fst a) (fst b) && str_eqb (snd a) (snd b).

(** ** Python names, nodes.py:228-274 *)
(** keyword.kwlist of Python 2.6 and RESERVED_NAMES, 32-39. *)
Definition reserved_names : list str := map lit
  ["and"; "as"; "assert"; "break"; "class"; "continue"; "def"; "del"; "elif"; "else"; "except"; "exec"; "finally"; "for"; "from";
   "global"; "if"; "import"; "in"; "is"; "lambda"; "not"; "or"; "pass"; "print"; "raise"; "return"; "try"; "while"; "with"; "yield";
   "__class__"; "__delattr__"; "__dict__"; "__doc__"; "__getattribute__"; "__getitem__"; "__hash__"; "__init__"; "__iter__"; "__module__";
   "__new__"; "__reduce__"; "__reduce_ex__"; "__repr__"; "__setattr__"; "__str__"; "__unicode__"; "__weakref__"; "locals"; "None"]%string.
(** The class [a-zA-Z0-9_] of XML_PY_REPLACE_PAT, 177. *)
Definition id_char (c : N) : bool :=
  ((97 <=? c) && (c <=? 122)) || ((65 <=? c) && (c <=? 90)) || ((48 <=? c) && (c <=? 57)) || (c =? 95).
(** The number of bytes of a character in UTF-8. *)
Definition utf8_length (c : N) : nat :=
  if c <? 128 then 1%nat else if c <? 2048 then 2%nat else if c <? 65536 then 3%nat else 4%nat.
(** XML_PY_REPLACE_PAT.sub('_', local.encode('utf-8')), 247. *)
Definition replace_pat (local : str) : str := flat_map (fun c => if id_char c then [c] else repeat 95 (utf8_length c)) local.
Fixpoint str_mem (s : str) (l : list str) : bool := match l with [] => false | x :: l' => str_eqb s x || str_mem s l' end.
(** The loop of 250-251; [exclude] is xml_exclude_pnames. *)
Fixpoint add_underscores (fuel : nat) (taken : list str) (pname : str) : result str :=
  if str_mem pname taken then
    match fuel with O => Err (OtherError 3) | S fuel' => add_underscores fuel' taken (pname ++ [95]) end
  else Ok pname.
Definition pname (exclude : list str) (local : str) : result str :=
  let taken := reserved_names ++ exclude in add_underscores (List.length taken) taken (replace_pat local).
(** The same as a plain string (it never fails, see BdProofs). *)
Definition py (exclude : list str) (local : str) : str := match pname exclude local with Ok p => p | Err _ => [] end.

(** ** Nodes and classes *)
(** [fac] stands for the document whose factory made the element; [BDoc] is the
    entity (document) itself; BOther: comments and processing instructions. *)
Inductive bnode :=
| BDoc (fac : nat) (kids : list bnode)
| BElem (fac : nat) (nm : name) (prefix : option str) (atts : list (name * str)) (kids : list bnode)
| BText (s : str)
| BOther (s : str).
Inductive cls := CDoc (fac : nat) | CElem (fac : nat) (nm : name).
Definition cls_eqb (a b : cls) : bool :=
  match a, b with
  | CDoc f, CDoc g => Nat.eqb f g
  | CElem f n, CElem g m => Nat.eqb f g && name_eqb n m
  | _, _ => false
  end.
Definition kids_of (n : bnode) : list bnode := match n with BDoc _ k => k | BElem _ _ _ _ k => k | _ => [] end.
Definition with_kids (n : bnode) (k : list bnode) : bnode :=
  match n with BDoc f _ => BDoc f k | BElem f nm p a _ => BElem f nm p a k | _ => n end.
Definition fac_of (n : bnode) : nat := match n with BDoc f _ => f | BElem f _ _ _ _ => f | _ => O end.
(** entity_base.__new__ (583-589) and xml_element_factory (620-633): one class
    for each document and for each name within a document. *)
Definition class_of (n : bnode) : option cls :=
  match n with BDoc f _ => Some (CDoc f) | BElem f nm _ _ _ => Some (CElem f nm) | _ => None end.

(** bound_element and bound_attribute, 108-170. *)
Inductive descr := DElem (nm : name) | DAttr (nm : name).
Definition descr_name (d : descr) : name := match d with DElem n => n | DAttr n => n end.
(** The class dictionaries, in the order of the bindings. *)
Definition registry := list (cls * str * descr).
Fixpoint lookup (r : registry) (c : cls) (p : str) : option descr :=
  match r with
  | [] => None
  | (c', p', d) :: r' => if cls_eqb c c' && str_eqb p p' then Some d else lookup r' c p
  end.
(** Names a class dictionary has from its creation or from __init__ (182, 625,
    627); those of Python itself are reserved. *)
Definition class_keys : list str := map lit ["xml_child_pnames"; "xml_model_"; "xml_pname_cache"]%string.

Section Bindery.
  Variable exclude : list str.

  (** xml_new_pname_mapping with update_class, 265-273.  The loop of 256-263
      ("while not True") never runs. *)
  Definition bind_name (r : registry) (c : cls) (d : descr) : registry :=
    let p := py exclude (snd (descr_name d)) in
    if str_mem p class_keys then r
    else match lookup r c p with None => r ++ [(c, p, d)] | Some _ => r end.
  (** xml_child_inserted, 276-282. *)
  Definition child_inserted (r : registry) (c : cls) (child : bnode) : registry :=
    match child with BElem _ nm _ _ _ => bind_name r c (DElem nm) | _ => r end.

  (** xml_element_factory, 620-633: [e.factory_entity = self] goes to the
      descriptor if the class has one of that name, and there
      [obj.factory_entity] (132) is None, or the attribute (165) is missing. *)
  Definition new_element (r : registry) (fac : nat) (nm : name) : result unit :=
    match lookup r (CElem fac nm) (lit "factory_entity") with
    | None => Ok tt
    | Some (DElem _) => Err AttributeError
    | Some (DAttr _) => Err KeyError
    end.

  (** ** Parsing: builder_StartElement (/repo/lib/src/domlette/builder.c:421-515)
      makes the element and adds its attributes; builder_EndElement (517-562)
      freezes the children, which reports them in order (container.c:195-227). *)
  Fixpoint build (r : registry) (n : bnode) : result registry :=
    match n with
    | BText _ | BOther _ => Ok r
    | BElem fac nm _ atts kids =>
      do _ <- new_element r fac nm ;
      let r1 := fold_left (fun r a => bind_name r (CElem fac nm) (DAttr (fst a))) atts r in
      do r2 <- (fix go r l := match l with [] => Ok r | k :: l' => do r' <- build r k ; go r' l' end) r1 kids ;
      Ok (fold_left (fun r k => child_inserted r (CElem fac nm) k) kids r2)
    | BDoc fac kids =>
      do r2 <- (fix go r l := match l with [] => Ok r | k :: l' => do r' <- build r k ; go r' l' end) r kids ;
      Ok (fold_left (fun r k => child_inserted r (CDoc fac) k) kids r2)
    end.

  (** ** Reading *)
  Definition is_named (nm : name) (n : bnode) : bool := match n with BElem _ m _ _ _ => name_eqb m nm | _ => false end.
  (** xml_find_named_child, 291-304, from position [i] on. *)
  Fixpoint find_named_child (nm : name) (kids : list bnode) (i : nat) : option nat :=
    match kids with
    | [] => None
    | k :: l => if is_named nm k then Some i else find_named_child nm l (S i)
    end.
  Fixpoint attr_get (atts : list (name * str)) (nm : name) : option str :=
    match atts with [] => None | (m, v) :: l => if name_eqb m nm then Some v else attr_get l nm end.
  Definition atts_of (n : bnode) : option (list (name * str)) := match n with BElem _ _ _ a _ => Some a | _ => None end.
  (** What an attribute access gives: a child (by its position), a string, None. *)
  Inductive pyval := VChild (i : nat) | VString (s : str) | VNone.
  (** obj.pname: bound_element.__get__ (117-123), bound_attribute.__get__
      (152-157); the descriptors are data descriptors and come before the
      instance dictionary.  A name that no descriptor has is an AttributeError
      here (methods and other attributes of the classes are not modelled). *)
  Definition get_named (r : registry) (obj : bnode) (p : str) : result pyval :=
    match class_of obj with
    | None => Err AttributeError
    | Some c =>
      match lookup r c p with
      | None => Err AttributeError
      | Some (DElem nm) => Ok (match find_named_child nm (kids_of obj) 0 with Some i => VChild i | None => VNone end)
      | Some (DAttr nm) =>
        match atts_of obj with
        | None => Err AttributeError
        | Some a => Ok (match attr_get a nm with Some v => VString v | None => VNone end)
        end
      end
    end.
  (** element_iterator, 82-96: the positions of the children of that name. *)
  Fixpoint positions (nm : name) (kids : list bnode) (i : nat) : list nat :=
    match kids with
    | [] => []
    | k :: l => if is_named nm k then i :: positions nm l (S i) else positions nm l (S i)
    end.
  (** __iter__, 561-562, of the element at position [j] among [siblings]. *)
  Definition iterate (siblings : list bnode) (e : bnode) : list nat :=
    match e with BElem _ (ns, local) _ _ _ => positions (ns, local) siblings 0 | _ => [] end.
  (** xml_qname, which __len__ and __getitem__ look for as a local name. *)
  Definition qname_of (e : bnode) : str :=
    match e with BElem _ (_, local) (Some p) _ _ => p ++ 58 :: local | BElem _ (_, local) None _ _ => local | _ => [] end.
  Definition by_qname (siblings : list bnode) (e : bnode) : list nat :=
    match e with BElem _ (ns, _) _ _ _ => positions (ns, qname_of e) siblings 0 | _ => [] end.
  (** __len__, 564-567. *)
  Definition len (siblings : list bnode) (e : bnode) : nat := List.length (by_qname siblings e).
  (** __getitem__ with an integer, 335-339. *)
  Definition py_index (l : list nat) (k : Z) : result nat :=
    let k' := if (k <? 0)%Z then (k + Z.of_nat (List.length l))%Z else k in
    if (k' <? 0)%Z then Err IndexError
    else match nth_error l (Z.to_nat k') with Some i => Ok i | None => Err IndexError end.
  Definition getitem_int (siblings : list bnode) (e : bnode) (k : Z) : result nat := py_index (by_qname siblings e) k.
  (** __getitem__ with a name, 340-354; [force]: the node type asked for. *)
  Inductive force := FNone | FAttr | FElem.
  Definition getitem_name (obj : bnode) (f : force) (nm : name) : result pyval :=
    match f, match atts_of obj with Some a => attr_get a nm | None => None end with
    | FNone, Some v | FAttr, Some v => Ok (VString v)
    | FAttr, None => Err KeyError
    | _, _ => Ok (match find_named_child nm (kids_of obj) 0 with Some i => VChild i | None => VNone end)
    end.

  (** ** Changing; the exception, if any, comes with the state it leaves *)
  Inductive value := Str (s : str) | NotString.
  Definition outcome := (registry * bnode * option exn)%type.
  Fixpoint set_nth (i : nat) (x : bnode) (l : list bnode) : list bnode :=
    match l, i with [], _ => [] | _ :: l', O => x :: l' | y :: l', S i' => y :: set_nth i' x l' end.
  Fixpoint remove_nth (i : nat) (l : list bnode) : list bnode :=
    match l, i with [], _ => [] | _ :: l', O => l' | y :: l', S i' => y :: remove_nth i' l' end.
  Fixpoint insert_nth (i : nat) (x : bnode) (l : list bnode) : list bnode :=
    match i, l with O, _ => x :: l | S i', y :: l' => y :: insert_nth i' x l' | S _, [] => [x] end.
  Definition inserted (r : registry) (obj child : bnode) : registry :=
    match class_of obj with Some c => child_inserted r c child | None => r end.
  (** xml_append(child), 306-322; the insertion is reported (container.c:384). *)
  Definition append_child (r : registry) (obj child : bnode) : outcome :=
    (inserted r obj child, with_kids obj (kids_of obj ++ [child]), None).
  (** "for child in target.xml_children: target.xml_remove(child);
      target.xml_append(value)", 128-130, 471-473: xml_children is a copy. *)
  Definition refill (target : bnode) (v : value) : bnode * option exn :=
    match v with Str s => (with_kids target [BText s], None) | NotString => (with_kids target [], Some TypeError) end.
  Definition refill_child (r : registry) (obj : bnode) (i : nat) (v : value) : outcome :=
    match nth_error (kids_of obj) i with
    | Some t => let (t', e) := refill t v in (r, with_kids obj (set_nth i t' (kids_of obj)), e)
    | None => (r, obj, Some IndexError)
    end.
  (** "new_elem = factory(ns, local); new_elem.xml_append(value);
      obj.xml_append(new_elem)", 132-134, 464-466. *)
  Definition append_new (r : registry) (obj : bnode) (nm : name) (v : value) : outcome :=
    match new_element r (fac_of obj) nm with
    | Err e => (r, obj, Some e)
    | Ok _ =>
      match v with
      | NotString => (r, obj, Some TypeError)
      | Str s => append_child r obj (BElem (fac_of obj) nm None [] [BText s])
      end
    end.
  Fixpoint attr_set (atts : list (name * str)) (nm : name) (v : str) : list (name * str) :=
    match atts with
    | [] => [(nm, v)]
    | (m, w) :: l => if name_eqb m nm then (m, v) :: l else (m, w) :: attr_set l nm v
    end.
  Definition attr_del (atts : list (name * str)) (nm : name) : list (name * str) := filter (fun a => negb (name_eqb (fst a) nm)) atts.
  Definition with_atts (n : bnode) (a : list (name * str)) : bnode :=
    match n with BElem f nm p _ k => BElem f nm p a k | _ => n end.
  (** xml_attributes[key] = value and setnode (attributemap.c:296-347), which
      report the attribute added (514-519). *)
  Definition set_attr (r : registry) (obj : bnode) (nm : name) (v : str) : outcome :=
    match obj with
    | BElem f m p a k => (bind_name r (CElem f m) (DAttr nm), BElem f m p (attr_set a nm v) k, None)
    | _ => (r, obj, Some AttributeError)
    end.
  (** obj.pname = value: bound_element.__set__ (125-135),
      bound_attribute.__set__ (159-166); without a descriptor a plain Python
      attribute is set and the document is left alone. *)
  Definition set_named (r : registry) (obj : bnode) (p : str) (v : value) : outcome :=
    match match class_of obj with Some c => lookup r c p | None => None end with
    | None => (r, obj, None)
    | Some (DElem nm) =>
      match find_named_child nm (kids_of obj) 0 with
      | Some i => refill_child r obj i v
      | None => append_new r obj nm v
      end
    | Some (DAttr nm) =>
      match v, atts_of obj with
      | Str s, _ => set_attr r obj nm s
      | NotString, Some a => (r, obj, Some (match attr_get a nm with Some _ => AttributeError | None => KeyError end))
      | NotString, None => (r, obj, Some AttributeError)
      end
    end.
  (** del obj.pname: 137-140, 168-170. *)
  Definition del_named (r : registry) (obj : bnode) (p : str) : outcome :=
    match match class_of obj with Some c => lookup r c p | None => None end with
    | None => (r, obj, Some AttributeError)
    | Some (DElem nm) =>
      match find_named_child nm (kids_of obj) 0 with
      | Some i => (r, with_kids obj (remove_nth i (kids_of obj)), None)
      | None => (r, obj, Some TypeError)
      end
    | Some (DAttr nm) =>
      match atts_of obj with
      | Some a => match attr_get a nm with Some _ => (r, with_atts obj (attr_del a nm), None) | None => (r, obj, Some KeyError) end
      | None => (r, obj, Some AttributeError)
      end
    end.
  (** obj[name] = string, 422-474. *)
  Definition setitem_name (r : registry) (obj : bnode) (f : force) (nm : name) (v : value) : outcome :=
    let on_elements :=
      match find_named_child nm (kids_of obj) 0 with
      | Some i => refill_child r obj i v
      | None => append_new r obj nm v
      end in
    match f, atts_of obj with
    | FNone, Some _ | FAttr, Some _ => match v with Str s => set_attr r obj nm s | NotString => (r, obj, Some TypeError) end
    | FAttr, None => (r, obj, Some KeyError)
    | _, _ => on_elements
    end.
  (** del obj[name], 379-398: the target found among the attributes is
      overwritten by 391-392. *)
  Definition delitem_name (r : registry) (obj : bnode) (f : force) (nm : name) : outcome :=
    match f with
    | FAttr => (r, obj, Some KeyError)
    | _ =>
      match find_named_child nm (kids_of obj) 0 with
      | Some i => (r, with_kids obj (remove_nth i (kids_of obj)), None)
      | None => (r, obj, None)
      end
    end.
  (** elem[k] = value and del elem[k], 376-378 and 419-421, on the parent of
      the element, which is at position [j]; islice refuses a negative start. *)
  Definition target_int (parent : bnode) (j : nat) (k : Z) : result nat :=
    match nth_error (kids_of parent) j with
    | None => Err IndexError
    | Some e => if (k <? 0)%Z then Err ValueError else getitem_int (kids_of parent) e k
    end.
  Definition setitem_int (r : registry) (parent : bnode) (j : nat) (k : Z) (v : value) : outcome :=
    match target_int parent j k with Ok i => refill_child r parent i v | Err e => (r, parent, Some e) end.
  Definition delitem_int (r : registry) (parent : bnode) (j : nat) (k : Z) : outcome :=
    match target_int parent j k with
    | Ok i => (r, with_kids parent (remove_nth i (kids_of parent)), None)
    | Err e => (r, parent, Some e)
    end.

  (** ** Programs: operations on the containers of a document *)
  Inductive op :=
  | Insert (i : nat) (sub : bnode)          (* xml_insert / xml_append of a parsed or new subtree *)
  | Remove (i : nat)                        (* xml_remove of a child *)
  | SetAttr (nm : name) (v : str)           (* xml_attributes[nm] = v *)
  | SetNamed (p : str) (v : value)
  | DelNamed (p : str)
  | SetItem (f : force) (nm : name) (v : value)
  | DelItem (f : force) (nm : name)
  | SetItemInt (j : nat) (k : Z) (v : value)
  | DelItemInt (j : nat) (k : Z).
  Definition is_container (n : bnode) : bool := match n with BDoc _ _ | BElem _ _ _ _ _ => true | _ => false end.
  Definition do_op (o : op) (r : registry) (obj : bnode) : outcome :=
    match o with
    | Insert i sub =>
      match sub with
      | BDoc _ _ => (r, obj, Some TypeError)
      | _ =>
        match build r sub with
        | Err e => (r, obj, Some e)
        | Ok r' => (inserted r' obj sub, with_kids obj (insert_nth i sub (kids_of obj)), None)
        end
      end
    | Remove i => (r, with_kids obj (remove_nth i (kids_of obj)), None)
    | SetAttr nm v => set_attr r obj nm v
    | SetNamed p v => set_named r obj p v
    | DelNamed p => del_named r obj p
    | SetItem f nm v => setitem_name r obj f nm v
    | DelItem f nm => delitem_name r obj f nm
    | SetItemInt j k v => setitem_int r obj j k v
    | DelItemInt j k => delitem_int r obj j k
    end.
  (** (Insert: if building the subtree fails, what its classes had bound so far
      is forgotten; the subtree is not part of the document.)
      An operation on the container at a path (positions from the document down). *)
  Fixpoint at_path (p : list nat) (n : bnode) : option bnode :=
    match p with
    | [] => Some n
    | i :: p' => match nth_error (kids_of n) i with Some k => at_path p' k | None => None end
    end.
  Fixpoint step (p : list nat) (o : op) (r : registry) (n : bnode) : outcome :=
    match p with
    | [] => if is_container n then do_op o r n else (r, n, Some AttributeError)
    | i :: p' =>
      match nth_error (kids_of n) i with
      | None => (r, n, Some IndexError)
      | Some k => let '(r', k', e) := step p' o r k in (r', with_kids n (set_nth i k' (kids_of n)), e)
      end
    end.
  (** A program goes on after an exception it has caught. *)
  Fixpoint run (prog : list (list nat * op)) (r : registry) (doc : bnode) : registry * bnode :=
    match prog with
    | [] => (r, doc)
    | (p, o) :: prog' => let '(r', doc', _) := step p o r doc in run prog' r' doc'
    end.
  (** parse(), then the program. *)
  Definition session (doc : bnode) (prog : list (list nat * op)) : result (registry * bnode) :=
    do r <- build [] doc ; Ok (run prog r doc).
End Bindery.
