(** * TakeModel.v — take and take_along_axis with a mode (definitions only).

    core/xtructure_numpy/__init__.py 130-181: for an instance, [take] maps
    [jnp.take(x, indices, axis=axis, mode=mode, fill_value=fill_value)] over the fields, and
    [take_along_axis] with a mode or a fill_value maps [jnp.take_along_axis] over the fields
    without expanding the indices (without either it is [obj_take_along]).
    [fill_value] is the pattern it has in each dtype.  [unique_indices] and
    [indices_are_sorted] are promises with no effect on the result when they are true.
    Index arithmetic is exact: index arrays are assumed wide enough for the axis length. *)
From Coq Require Import String.
From Verif Require Import Jax StructModel ArrayModel EqModel RowsModel RowsModel2.

(** mode=None is "fill" *)
Inductive take_mode := MFill | MClip | MWrap.
(** jnp.take: "fill" wraps negative indices once; "clip" clamps, negative indices to 0;
    "wrap" is modulo the axis length *)
Definition read_take (m : take_mode) (z : Z) (d : nat) : option nat :=
  match m with
  | MFill => norm_index z d
  | MClip => Some (Z.to_nat (Z.max 0 (Z.min z (Z.of_nat d - 1))))
  | MWrap => Some (Z.to_nat (z mod Z.of_nat d))
  end.
Definition filler (fill_value : option (dtype -> Z)) : dtype -> Z := match fill_value with Some f => f | None => take_fill end.
Definition obj_take_mode (m : take_mode) (fill_value : option (dtype -> Z)) (indices : array) (axis : Z) (o : obj) : option obj :=
  tree_map1 (a_take_by (read_take m) (filler fill_value) indices axis) o.
(** axis=None, the default *)
Definition obj_take_flat_mode (m : take_mode) (fill_value : option (dtype -> Z)) (indices : array) (o : obj) : option obj :=
  tree_map1 (fun a => a_take_by (read_take m) (filler fill_value) indices 0 (a_ravel a)) o.
(** jnp.take_along_axis wraps negative indices once before the mode applies; it has no
    "wrap" mode. *)
Definition read_along (m : take_mode) (z : Z) (d : nat) : option nat :=
  match m with
  | MFill | MWrap => norm_index z d
  | MClip => Some (clamp_index z d)
  end.
(** jnp.take_along_axis: the ranks must agree; the array and the indices are broadcast against
    each other along all axes but the gathered one *)
Definition a_take_along_bc (read : Z -> nat -> option nat) (fill : dtype -> Z) (k : nat) (indices a : array) : option array :=
  if ndim indices =? ndim a then
    match bzip (upd k 1 (ashape a)) (upd k 1 (ashape indices)) with
    | Some s =>
        match a_broadcast_to (upd k (nth k (ashape indices) 0) s) indices, a_broadcast_to (upd k (nth k (ashape a) 0) s) a with
        | Some i, Some x => a_take_along_by read fill k i x
        | _, _ => None
        end
    | None => None
    end
  else None.
Definition obj_take_along_mode (m : take_mode) (fill_value : option (dtype -> Z)) (indices : array) (axis : Z) (o : obj) : option obj :=
  match m with
  | MWrap => None
  | _ => tree_map1 (fun a => match norm_axis axis (ndim a) with
                             | Some k => a_take_along_bc (read_along m) (filler fill_value) k indices a
                             | None => None
                             end) o
  end.
(** axis=None: the flattened fields, and indices with one axis *)
Definition obj_take_along_flat_mode (m : take_mode) (fill_value : option (dtype -> Z)) (indices : array) (o : obj) : option obj :=
  match m with
  | MWrap => None
  | _ => tree_map1 (fun a => a_take_along_bc (read_along m) (filler fill_value) 0 indices (a_ravel a)) o
  end.
(** 172-181: a mode or a fill value selects jnp.take_along_axis on every field, whose default
    mode is "fill"; without them _dc.take_along_axis runs, which compares the axis with 0 (batch_ops.py
    215) and so raises TypeError at the first field when it is None *)
Definition xnp_take_along_axis (m : option take_mode) (fill_value : option (dtype -> Z)) (indices : array) (axis : option Z) (o : obj) : option obj :=
  match m, fill_value with
  | None, None => match axis with Some z => obj_take_along indices z o | None => tree_map1 (fun _ => None) o end
  | _, _ => let m' := match m with Some x => x | None => MFill end in
      match axis with Some z => obj_take_along_mode m' fill_value indices z o | None => obj_take_along_flat_mode m' fill_value indices o end
  end.
