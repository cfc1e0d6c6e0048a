(** * SliceModel.v — slices, boolean masks and [...] as indices of an instance
      (definitions only).

    core/xtructure_decorators/indexing.py 182-199 [__getitem__] and 34-73 [.at[index].set(...)] hand
    the index to every array on its own.  [None] is a raised exception. *)
From Verif Require Import Jax StructModel ArrayModel ShapeModel RowsModel UpdateModel SoaModel.

(** jax.numpy: [a[start:stop:step]] on the first axis; a step of 0 is a ValueError, a scalar
    array has no axis *)
Definition a_getslice (start stop : option Z) (step : Z) (a : array) : option array :=
  if (step =? 0)%Z then None
  else match ashape a with
       | [] => None
       | d :: _ => let '(st, k, len) := slice_indices start stop step d in a_index [ISlice st k len] a
       end.
Definition obj_getslice (start stop : option Z) (step : Z) (o : obj) : option obj := tree_map1 (a_getslice start stop step) o.
(** [a.at[start:stop:step].set(v)]: the values are broadcast to the shape of the slice *)
Definition slice_positions (p : Z * Z * nat) : list Z := let '(st, k, len) := p in map (fun i => (st + k * Z.of_nat i)%Z) (seq 0 len).
Definition a_setslice (start stop : option Z) (step : Z) (v a : array) : option array :=
  if (step =? 0)%Z then None
  else match ashape a with
       | [] => None
       | d :: _ => a_at_set (ivec (slice_positions (slice_indices start stop step d))) v a
       end.
Definition obj_setslice (start stop : option Z) (step : Z) (o values : obj) : obj := set_each (a_setslice start stop step) o values.

(** [a[mask]], [mask] a concrete boolean array: its shape must be that of the leading axes; the
    entries at the true positions, in row-major order *)
Definition true_positions (mask : array) : list nat := filter (fun i => negb (nth i (adata mask) 0 =? 0)%Z) (seq 0 (prod (ashape mask))).
Definition a_mask (mask a : array) : option array :=
  if shape_eqb (firstn (ndim mask) (ashape a)) (ashape mask) then
    let ps := true_positions mask in
    Some (build (adtype a) (length ps :: skipn (ndim mask) (ashape a))
            (fun idx => get a (unravel (ashape mask) (nth (hd 0 idx) ps 0) ++ tl idx)))
  else None.
Definition obj_mask (mask : array) (o : obj) : option obj := tree_map1 (a_mask mask) o.
(** [a.at[mask].set(v)] with a one-dimensional mask *)
Definition a_setmask (mask v a : array) : option array :=
  match ashape a with
  | d :: _ => if shape_eqb (ashape mask) [d] then a_at_set (ivec (map Z.of_nat (true_positions mask))) v a else None
  | [] => None
  end.
Definition obj_setmask (mask : array) (o values : obj) : obj := set_each (a_setmask mask) o values.

(** [a[..., z]]: the last axis; integers out of range are clamped *)
Definition a_last (z : Z) (a : array) : option array :=
  match rev (ashape a) with
  | [] => None
  | d :: rs => if d =? 0 then None else Some (build (adtype a) (rev rs) (fun idx => get a (idx ++ [clamp_index z d])))
  end.
Definition obj_last (z : Z) (o : obj) : option obj := tree_map1 (a_last z) o.
