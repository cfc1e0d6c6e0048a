(** * UpdateForeignModel.v — indexed updates of an instance with an instance of another class as
      values (definitions only).

    core/xtructure_decorators/indexing.py 34-73 [.at[index].set(values)] and 75-147
    [.at[indices].set_as_condition(condition, values)].  The question [isinstance(values, cls)]
    (line 44, 103) is asked again at every nested field with the class of that field; [mine path]
    is its answer at the nested field reached by [path] (the empty path: the instance itself).
    An array does not take an instance: jax raises a TypeError, the field keeps its value
    (67-69, 143-145). *)
From Coq Require Import String.
From Verif Require Import Jax StructModel ArrayModel ShapeModel RowsModel UpdateModel SoaModel.

Section Foreign.
Variable mine : list string -> bool.
Variable f : array -> array -> option array.
Fixpoint set_value_v (path : list string) (v : value) (q : obj) {struct v} : value :=
  match v with
  | VArr _ => v
  | VObj o => if mine path then VObj (set_each f o q) else VObj (set_value path o q)
  end
with set_value (path : list string) (o q : obj) {struct o} : obj :=
  match o with
  | ONil => ONil
  | OCons n v r => OCons n (set_value_v (path ++ [n]) v q) (set_value path r q)
  end.
Definition set_instance (o q : obj) : obj := if mine [] then set_each f o q else set_value [] o q.
End Foreign.
Definition obj_at_set_instance (mine : list string -> bool) (idx : array) : obj -> obj -> obj := set_instance mine (a_at_set idx).
Definition obj_at_set_as_condition_instance (mine : list string -> bool) (indices condition : array) : obj -> obj -> obj :=
  set_instance mine (a_update indices condition).
