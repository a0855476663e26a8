(** * Specification of the utilities *)
From Coq Require Import NArith ZArith String List Bool.
From Verif Require Import PyStr DomModel DomSpec.
Import ListNotations.
Local Open Scope nat_scope.

(** The elements among the children of a node. *)
Definition element (s : store) (i : nat) : Prop := kind_of s i = Some KElement.
Definition elements (s : store) (l : list nat) : list nat :=
  filter (fun i => match kind_of s i with Some KElement => true | _ => false end) l.

(** ** Pieces of a text between separators *)

Definition starts (sep s : str) : Prop := exists r, s = sep ++ r.
(** [pieces sep s l]: cutting [s] at every occurrence of [sep], from the left,
    leaves [l]. *)
Inductive pieces (sep : str) : str -> list str -> Prop :=
| pc_last : forall w, (forall j, ~ starts sep (skipn j w)) -> pieces sep w [w]
| pc_cut : forall w r l, (forall j, (j < length w)%nat -> ~ starts sep (skipn j (w ++ sep ++ r))) ->
    pieces sep r l -> pieces sep (w ++ sep ++ r) (w :: l).

(** ** Templates *)

(** A template is made of text without "$", "$$", "$name" and "${name}". *)
Inductive part := Text (s : str) | Dollar | Name (n : str) | Braced (n : str).
Local Open Scope N_scope.
(** Letters (with the two signs whose small letter is an ASCII one), digits
    and "_". *)
Definition letter (c : N) : Prop := (65 <= c <= 90) \/ (97 <= c <= 122) \/ c = 95 \/ c = 304 \/ c = 8490.
Definition digit (c : N) : Prop := 48 <= c <= 57.
Definition identifier (n : str) : Prop :=
  match n with c :: r => letter c /\ Forall (fun c => letter c \/ digit c) r | [] => False end.
Definition written1 (p : part) : str :=
  match p with
  | Text s => s
  | Dollar => [36; 36]
  | Name n => 36 :: n
  | Braced n => [36; 123] ++ n ++ [125]
  end.
Definition written (l : list part) : str := flat_map written1 l.
(** The parts are proper, and no name is followed by a character that would
    belong to it. *)
Inductive template : list part -> Prop :=
| tp_nil : template []
| tp_text : forall s l, ~ In 36 s -> template l -> template (Text s :: l)
| tp_dollar : forall l, template l -> template (Dollar :: l)
| tp_name : forall n l, identifier n -> (forall c r, written l = c :: r -> ~ letter c /\ ~ digit c) -> template l -> template (Name n :: l)
| tp_braced : forall n l, identifier n -> template l -> template (Braced n :: l).
(** What a part stands for; a name may stand for nothing. *)
Definition meaning1 (value : str -> option str) (p : part) : option str :=
  match p with
  | Text s => Some s
  | Dollar => Some [36]
  | Name n | Braced n => value n
  end.
Fixpoint meaning (value : str -> option str) (l : list part) : option str :=
  match l with
  | [] => Some []
  | p :: r =>
    match meaning1 value p, meaning value r with
    | Some v, Some w => Some (v ++ w)
    | _, _ => None
    end
  end.
(** A "$" that begins nothing. *)
Definition stray (s : str) : Prop :=
  match s with
  | [] => True
  | c :: r => c <> 36 /\ ~ letter c /\ ~ (c = 123 /\ exists n r', identifier n /\ r = n ++ 125 :: r')
  end.
