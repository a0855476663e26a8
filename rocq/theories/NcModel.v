(** * Model of the name caches of the parser

    /repo/lib/src/expat/hash_table.c, and split_triplet and create_name of expat.c: the names
    expat gives to the parser are split, and the results kept in hash tables for the whole document.
    Memory allocation does not fail, and tables stay below 2^30 slots, where no int overflows. *)
From Coq Require Import NArith String List Bool.
From Verif Require Import PyStr PyErr.
Import ListNotations.
Open Scope N_scope.

(** The C code would not come back, or would read outside the table. *)
Definition Diverges : exn := OtherError 195.
Definition OutOfTable : exn := OtherError 196.

Section Table.
Context {V : Type}.
(** HashTableEntry, hash_table.h:11-16; without a key it is None *)
Record entry := { en_hash : N; en_key : str; en_value : V }.
(** HashTable, hash_table.h:18-28 *)
Record table := { t_used : nat; t_mask : N; t_slots : list (option entry) }.

(** HashTable_New, hash_table.c:16-31 *)
Definition new_table : table := {| t_used := 0; t_mask := 63; t_slots := repeat None 64 |}.
(** CHECK_ENTRY, hash_table.c:49-52 *)
Definition check_entry (e : entry) (key : str) (hash : N) : bool :=
  (en_hash e =? hash) && Nat.eqb (length (en_key e)) (length key) &&
  str_eqb (firstn (length key) (en_key e)) (firstn (length key) key).
Definition stop (o : option entry) (key : str) (hash : N) : bool :=
  match o with None => true | Some e => check_entry e key hash end.
(** The loop of lookup_entry, hash_table.c:69-77; ints have 32 bits *)
Fixpoint probe (fuel : nat) (t : table) (key : str) (hash i perturb : N) : result nat :=
  match fuel with
  | O => Err Diverges
  | S f =>
    let i := (N.shiftl i 2 + i + perturb + 1) mod 2 ^ 32 in
    let p := N.to_nat (N.land i (t_mask t)) in
    if stop (nth p (t_slots t) None) key hash then Ok p else probe f t key hash i (N.shiftr perturb 5)
  end.
(** lookup_entry, hash_table.c:54-78 *)
Definition lookup_entry (t : table) (key : str) (hash : N) : result nat :=
  let i := N.land hash (t_mask t) in
  let p := N.to_nat i in
  if stop (nth p (t_slots t) None) key hash then Ok p
  else probe (7 + length (t_slots t)) t key hash i (hash mod 2 ^ 32).
Fixpoint set_slot {A} (l : list A) (i : nat) (x : A) : list A :=
  match l, i with [], _ => [] | _ :: l', O => x :: l' | a :: l', S i' => a :: set_slot l' i' x end.
Definition with_slots (t : table) (l : list (option entry)) : table := {| t_used := t_used t; t_mask := t_mask t; t_slots := l |}.
(** The loop of table_resize, hash_table.c:104-111: [i] entries are still to be copied *)
Fixpoint copy (i : nat) (old : list (option entry)) (t : table) : result table :=
  match i, old with
  | O, _ => Ok t
  | S _, [] => Err OutOfTable
  | S _, None :: old' => copy i old' t
  | S i', Some e :: old' => do p <- lookup_entry t (en_key e) (en_hash e) ; copy i' old' (with_slots t (set_slot (t_slots t) p (Some e)))
  end.
(** table_resize, hash_table.c:83-115 *)
Definition table_resize (t : table) : result table :=
  let size := (t_mask t + 1) * 4 in
  copy (t_used t) (t_slots t) {| t_used := t_used t; t_mask := size - 1; t_slots := repeat None (N.to_nat size) |}.
(** The hash of a key, hash_table.c:129-133; longs have 64 bits.  The key is followed by a null *)
Definition hash_of (key : str) : N :=
  N.lxor (fold_left (fun h c => N.lxor ((1000003 * h) mod 2 ^ 64) c) key (hd 0 key * 128)) (N.of_nat (length key)).
(** HashTable_Lookup, hash_table.c:117-170, with the function that builds a value and the state it works on *)
Definition table_lookup {S} (build : S -> str -> result (S * V)) (st : S) (t : table) (key : str) : result (S * table * V) :=
  let hash := hash_of key in
  do p <- lookup_entry t key hash ;
  match nth p (t_slots t) None with
  | Some e => Ok (st, t, en_value e)
  | None =>
    do r <- build st key ;
    let '(st, v) := r in
    let t := {| t_used := t_used t + 1; t_mask := t_mask t; t_slots := set_slot (t_slots t) p (Some {| en_hash := hash; en_key := key; en_value := v |}) |} in
    do t <- (if (t_mask t + 1) * 2 <=? N.of_nat (t_used t) * 3 then table_resize t else Ok t) ;
    Ok (st, t, v)
  end.
(** HashTable_Del, hash_table.c:33-47: what is released *)
Fixpoint release (used : nat) (l : list (option entry)) : result (list (str * V)) :=
  match used, l with
  | O, _ => Ok []
  | S _, [] => Err OutOfTable
  | S _, None :: l' => release used l'
  | S u, Some e :: l' => do r <- release u l' ; Ok ((en_key e, en_value e) :: r)
  end.
Definition table_del (t : table) : result (list (str * V)) := release (t_used t) (t_slots t).
End Table.
Arguments entry : clear implicits. Arguments table : clear implicits.

(** ** Names *)
Definition SEP : N := 12.
(** ExpatName: namespaceURI, localName, qualifiedName; strings by value *)
Definition name := (option str * str * str)%type.
(** for (i = 0; i < len && s[i] != NAMESPACE_SEP; i++): what is before i, and what is after it unless i == len *)
Fixpoint scan (s : str) : str * option str :=
  match s with
  | [] => ([], None)
  | c :: s' => if c =? SEP then ([], Some s') else let '(a, r) := scan s' in (c :: a, r)
  end.
(** LOOKUP_UNICODE, expat.c:901-902, with XMLChar_DecodeSized *)
Definition unicode (cache : table str) (s : str) : result (table str * str) :=
  do r <- table_lookup (fun (u : unit) k => Ok (u, k)) tt cache s ; Ok (snd (fst r), snd r).
(** split_triplet, expat.c:935-1014 *)
Definition split_triplet (cache : table str) (triplet : str) : result (table str * name) :=
  match scan triplet with
  | (_, None) => do r <- unicode cache triplet ; Ok (fst r, (None, snd r, snd r))
  | (uri, Some rest) =>
    do u <- unicode cache uri ;
    let '(local, more) := scan rest in
    do l <- unicode (fst u) local ;
    match more with
    | Some (c :: p) => Ok (fst l, (Some (snd u), snd l, (c :: p) ++ 58 :: snd l))
    | _ => Ok (fst l, (Some (snd u), snd l, snd l))
    end
  end.
(** name_cache and unicode_cache of the parser *)
Definition caches := (table name * table str)%type.
Definition new_caches : caches := (new_table, new_table).
(** create_name, expat.c:1016-1024 *)
Definition create_name (c : caches) (triplet : str) : result (caches * name) :=
  do r <- table_lookup split_triplet (snd c) (fst c) triplet ;
  let '(unicode_cache, name_cache, n) := r in Ok ((name_cache, unicode_cache), n).
