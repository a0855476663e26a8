(** * The content of XUpdate commands as the tree writer makes it *)
From Coq Require Import NArith String List Bool.
From Verif Require Import PyStr PyErr XsModel SerModel XwModel TwModel DomModel XuModel XuSpec.
Import ListNotations.

(** What [writer.get_result()] holds (TwModel.fragment, C69) as the trees that the
    commands of XuModel move: commands.py:70-74, 164-168, 192-196, 228-232.
    Names are expanded names, namespace declarations are left out. *)
Fixpoint dtree_of (n : SerModel.node) : dtree :=
  match n with
  | NElem ns q _ atts kids =>
    DT KElement (ns, snd (XsModel.split_qname q)) [] (map (fun a => ((a_ns a, snd (XsModel.split_qname (a_qname a))), a_value a)) atts)
       ((fix all (l : list SerModel.node) : list dtree := match l with [] => [] | n :: l' => dtree_of n :: all l' end) kids)
  | NText s => DT KText (None, []) s [] []
  | NComment s => DT KComment (None, []) s [] []
  | NPI t s => DT KPI (None, t) s [] []
  end.
Definition written (calls : list XwModel.call) : result (list dtree) := rmap (map dtree_of) (TwModel.fragment calls).
