(** * UpdateAnyModel.v — indexed updates of an instance with values that are one array instead of
      an instance of the class (definitions only). *)
From Verif Require Import Jax StructModel ArrayModel ShapeModel RowsModel UpdateModel SoaModel PromoteModel.

(** every field separately; a field whose update raises keeps its old value *)
Fixpoint set_all_v (f : array -> option array) (v : value) {struct v} : value :=
  match v with
  | VArr a => match f a with Some a' => VArr a' | None => v end
  | VObj o => VObj (set_all f o)
  end
with set_all (f : array -> option array) (o : obj) {struct o} : obj :=
  match o with
  | ONil => ONil
  | OCons n v r => OCons n (set_all_v f v) (set_all f r)
  end.
(** indexing.py 34-73 [.at[indices].set(values)], values an array: every field is updated with
    the same array (59-63; a nested instance passes it on), converted by jax to the dtype of
    the field.  A Python number counts as a scalar array of int32, float32 or bool *)
Definition obj_at_set_array (idx w : array) (o : obj) : obj := set_all (fun a => a_at_set idx (a_conv (adtype a) w) a) o.
(** indexing.py 75-147 [.at[indices].set_as_condition(condition, values)], values an array *)
Definition obj_at_set_as_condition_array (indices condition w : array) (o : obj) : obj :=
  set_all (fun a => a_update indices condition (a_conv (adtype a) w) a) o.
