(** * RowsModel2.v — the remaining batch operations on instances (definitions only).

    core/xtructure_numpy/dataclass_ops/{batch,shape,spatial,fill,comparison,type,logical}_ops.py
    and the dispatching wrappers of core/xtructure_numpy/__init__.py.  [None] is a raised
    exception. *)
From Coq Require Import String.
From Verif Require Import Jax StructModel ArrayModel ShapeModel RowsModel EqModel.

Definition obind {X Y} (x : option X) (f : X -> option Y) : option Y := match x with Some v => f v | None => None end.

(** ** jnp functions *)
(** jnp.moveaxis: axes not moved keep their order; the moved ones are inserted by increasing
    destination *)
Fixpoint ins_pair (p : nat * nat) (l : list (nat * nat)) : list (nat * nat) :=
  match l with [] => [p] | q :: r => if fst p <=? fst q then p :: l else q :: ins_pair p r end.
Definition sort_pairs (l : list (nat * nat)) : list (nat * nat) := fold_right ins_pair [] l.
Definition move_perm (n : nat) (src dst : list nat) : list nat :=
  fold_left (fun perm p => insert (fst p) (snd p) perm) (sort_pairs (combine dst src))
            (filter (fun i => negb (existsb (Nat.eqb i) src)) (seq 0 n)).
Definition a_moveaxis (src dst : list Z) (a : array) : option array :=
  match norm_axes src (ndim a), norm_axes dst (ndim a) with
  | Some s, Some d => if (length s =? length d) && nodupb s && nodupb d then a_transpose (map Z.of_nat (move_perm (ndim a) s d)) a else None
  | _, _ => None
  end.
(** jnp.rot90 *)
Definition a_rot90 (k : Z) (axes : Z * Z) (a : array) : option array :=
  match norm_axis (fst axes) (ndim a), norm_axis (snd axes) (ndim a) with
  | Some i, Some j =>
      if i =? j then None
      else
        let zi := Z.of_nat i in let zj := Z.of_nat j in
        match Z.to_nat (k mod 4) with
        | 0 => Some a
        | 2 => obind (a_flip zi a) (a_flip zj)
        | 1 => obind (a_flip zj a) (a_swapaxes zi zj)
        | _ => obind (a_swapaxes zi zj a) (a_flip zj)
        end
  | _, _ => None
  end.
(** jnp.flip and jnp.roll with several axes, one after the other (flip: repeated axes raise;
    roll: a scalar shift is repeated, here one shift per axis) *)
Definition a_flips (axes : list Z) (a : array) : option array :=
  match norm_axes axes (ndim a) with
  | Some ks => if nodupb ks then fold_left (fun x k => obind x (a_flip (Z.of_nat k))) ks (Some a) else None
  | None => None
  end.
Definition a_rolls (sh : list (Z * Z)) (a : array) : option array := fold_left (fun x p => obind x (a_roll (fst p) (snd p))) sh (Some a).
(** jnp.atleast_1d/2d/3d *)
Definition as_shape (s : list nat) (a : array) : array := MkArr (adtype a) s (adata a).
Definition a_atleast_1d (a : array) : array := match ashape a with [] => as_shape [1] a | _ => a end.
Definition a_atleast_2d (a : array) : array := match ashape a with [] => as_shape [1; 1] a | [n] => as_shape [1; n] a | _ => a end.
Definition a_atleast_3d (a : array) : array :=
  match ashape a with [] => as_shape [1; 1; 1] a | [n] => as_shape [1; n; 1] a | [n; m] => as_shape [n; m; 1] a | _ => a end.
(** jnp.vstack, hstack, dstack, column_stack *)
Definition a_vstack (l : list array) : option array := a_concat 0 (map a_atleast_2d l).
Definition a_hstack (l : list array) : option array :=
  match map a_atleast_1d l with
  | a0 :: r => a_concat (if ndim a0 =? 1 then 0 else 1) (a0 :: r)
  | [] => None
  end.
Definition a_dstack (l : list array) : option array := a_concat 2 (map a_atleast_3d l).
Definition a_column (a : array) : array := match ashape a with [] => as_shape [1; 1] a | [n] => as_shape [n; 1] a | _ => a end.
Definition a_column_stack (l : list array) : option array := a_concat 1 (map a_column l).
(** jnp.repeat with one count per position of the axis: source positions *)
Fixpoint repeat_src (i : nat) (rs : list nat) : list nat := match rs with [] => [] | r :: t => repeat i r ++ repeat_src (S i) t end.
Definition a_repeats (rs : list nat) (axis : Z) (a : array) : option array :=
  match norm_axis axis (ndim a) with
  | Some k => if length rs =? nth k (ashape a) 0
              then let l := repeat_src 0 rs in
                   Some (build (adtype a) (upd k (length l) (ashape a)) (fun idx => get a (upd k (nth (nth k idx 0) l 0) idx)))
              else None
  | None => None
  end.
(** jnp.ravel, jnp.concatenate(axis=None), jnp.take(axis=None) *)
Definition a_ravel (a : array) : array := as_shape [prod (ashape a)] a.
Definition a_concat_flat (l : list array) : option array := a_concat 0 (map a_ravel l).
Definition a_take_flat (indices a : array) : option array := a_take indices 0 (a_ravel a).
(** jnp.pad with a mode that copies elements: [g n before i] is the position copied to [i]
    along an axis of size [n]; "constant" is [a_pad] *)
Definition pad_edge (n before i : nat) : nat := Nat.min (i - before) (n - 1).
Definition pad_wrap (n before i : nat) : nat := Z.to_nat ((Z.of_nat i - Z.of_nat before) mod Z.of_nat n).
Definition pad_reflect (n before i : nat) : nat :=
  if n =? 1 then 0 else let m := Z.to_nat ((Z.of_nat i - Z.of_nat before) mod (2 * Z.of_nat n - 2)) in if m <? n then m else 2 * n - 2 - m.
Definition pad_symmetric (n before i : nat) : nat :=
  let m := Z.to_nat ((Z.of_nat i - Z.of_nat before) mod (2 * Z.of_nat n)) in if m <? n then m else 2 * n - 1 - m.
Definition a_pad_copy (g : nat -> nat -> nat -> nat) (pads : list (nat * nat)) (a : array) : option array :=
  if negb (length pads =? ndim a) then None
  else if existsb (fun q => (fst q =? 0) && negb ((fst (snd q) =? 0) && (snd (snd q) =? 0))) (combine (ashape a) pads) then None
  else Some (build (adtype a) (map (fun q => fst q + (fst (snd q) + snd (snd q))) (combine (ashape a) pads))
               (fun idx => get a (map (fun q => if (fst (snd (snd q)) =? 0) && (snd (snd (snd q)) =? 0) then fst q else g (fst (snd q)) (fst (snd (snd q))) (fst q)) (combine idx (combine (ashape a) pads))))).

(** ** Instances *)
(** shape_ops.py 179-188 moveaxis; spatial_ops.py 13-36 *)
Definition obj_moveaxis (src dst : list Z) (o : obj) : option obj := tree_map1 (a_moveaxis src dst) o.
Definition obj_rot90 (k : Z) (axes : Z * Z) (o : obj) : option obj := tree_map1 (a_rot90 k axes) o.
Definition obj_flips (axes : list Z) (o : obj) : option obj := tree_map1 (a_flips axes) o.
Definition obj_rolls (sh : list (Z * Z)) (o : obj) : option obj := tree_map1 (a_rolls sh) o.
(** shape_ops.py 170-176 repeat with an array *)
Definition obj_repeats (rs : list nat) (axis : Z) (o : obj) : option obj := tree_map1 (a_repeats rs axis) o.
(** shape_ops.py 230-256 *)
Definition obj_atleast (f : array -> array) (o : obj) : option obj := tree_map1 (fun a => Some (f a)) o.
(** batch_ops.py 274-300 *)
Definition obj_vstack (os : list obj) : option obj := tree_mapn a_vstack os.
Definition obj_hstack (os : list obj) : option obj := tree_mapn a_hstack os.
Definition obj_dstack (os : list obj) : option obj := tree_mapn a_dstack os.
Definition obj_column_stack (os : list obj) : option obj := tree_mapn a_column_stack os.
(** __init__.py 42-65 concat/concatenate with axis=None; 135-166 take, whose axis defaults to
    None; 169-181 take_along_axis, whose axis defaults to -1 *)
Definition obj_concat_flat (os : list obj) : option obj := tree_mapn a_concat_flat os.
Definition obj_take_default (indices : array) (o : obj) : option obj := tree_map1 (a_take_flat indices) o.
Definition obj_take_along_default (indices : array) (o : obj) : option obj := obj_take_along indices (-1) o.
(** shape_ops.py 196-227 broadcast_arrays: the common shape of the leaves of each field *)
Fixpoint bshapes (l : list (list nat)) : option (list nat) :=
  match l with [] => Some [] | s :: r => obind (bshapes r) (bshape s) end.
Definition a_broadcast_nth (i : nat) (l : list array) : option array :=
  obind (bshapes (map ashape l)) (fun s => obind (nth_error l i) (a_broadcast_to s)).
Definition obj_broadcast_arrays (os : list obj) : option (list obj) := sequence (map (fun i => tree_mapn (a_broadcast_nth i) os) (seq 0 (length os))).
(** fill_ops.py 13-27: [jnp.full_like] converts the fill value to the dtype of each field; the
    fill is given per dtype *)
Definition obj_full_like (fl : dtype -> Z) (o : obj) : option obj := tree_map1 (fun a => Some (full (adtype a) (ashape a) (fl (adtype a)))) o.
Definition one_of (dt : dtype) : Z := match dt with DFloat w => (2 ^ (Z.of_nat w - 2) - 2 ^ man_bits w)%Z | _ => 1%Z end.
Definition obj_zeros_like (o : obj) : option obj := obj_full_like (fun _ => 0%Z) o.
Definition obj_ones_like (o : obj) : option obj := obj_full_like one_of o.
(** type_ops.py 13-27 astype of integer and boolean arrays *)
Definition a_astype (dt : dtype) (a : array) : array := MkArr dt (ashape a) (map (cast dt) (adata a)).
Definition obj_astype (dt : dtype) (o : obj) : option obj := tree_map1 (fun a => Some (a_astype dt a)) o.
(** comparison_ops.py 13-20 equal / not_equal: an instance of boolean arrays *)
Definition a_compare_arr (f : dtype -> Z -> Z -> bool) (l : list array) : option array :=
  match l with
  | [a; b] => obind (bshape (ashape a) (ashape b)) (fun s => option_map (fun bs => MkArr DBool s (map (fun x : bool => if x then 1%Z else 0%Z) bs)) (a_compare f a b))
  | _ => None
  end.
Definition obj_equal (o q : obj) : option obj := tree_mapn (a_compare_arr elt_eqb) [o; q].
Definition obj_not_equal (o q : obj) : option obj := tree_mapn (a_compare_arr (fun dt x y => negb (elt_eqb dt x y))) [o; q].
(** logical_ops.py 75-110 where_no_broadcast with an array or an instance as the condition;
    array_ops.py 86-116.  [a_where] raises unless the shapes and dtypes agree *)
Definition leaf_where_strict (cond : array) (l : list array) : option array := match l with [x; y] => a_where cond x y | _ => None end.
Definition obj_where_strict (cond : array) (x y : obj) : option obj := tree_mapn (leaf_where_strict cond) [x; y].
Definition leaf_where_obj (l : list array) : option array := match l with [cd; x; y] => a_where cd x y | _ => None end.
Definition obj_where_obj (cond x y : obj) : option obj := tree_mapn leaf_where_obj [cond; x; y].
(** logical_ops.py 53-72 where with a Python int for [y]: [jnp.asarray] makes it an int32
    array, and both arrays are converted to [jnp.result_type(x.dtype, int32)] (with 64-bit
    types disabled: uint32 with int32 gives int32); for float fields the converted value is
    given per dtype *)
Definition promote_int (dt : dtype) : dtype := match dt with DFloat w => DFloat w | _ => DInt 32 end.
Definition leaf_where_int (cond : array) (z : Z) (fl : dtype -> Z) (l : list array) : option array :=
  match l with
  | [x] =>
      let t := promote_int (adtype x) in
      obind (a_broadcast_to (ashape x) cond) (fun cd =>
        a_where cd (MkArr t (ashape x) (map (cast t) (adata x))) (full t (ashape x) (match t with DFloat _ => fl t | _ => z end)))
  | _ => None
  end.
Definition obj_where_int (cond : array) (z : Z) (fl : dtype -> Z) (x : obj) : option obj := tree_mapn (leaf_where_int cond z fl) [x].

(** batch_ops.py 16-43 [_normalize_pad_width]: an int, a sequence of ints or of pairs *)
Inductive pad_arg := PInt (z : Z) | PInts (l : list Z) | PPairs (l : list (Z * Z)).
Definition normalize_pad (p : pad_arg) (n : nat) : option (list (Z * Z)) :=
  match p with
  | PInt z => Some (repeat (z, z) n)
  | PInts [] | PPairs [] => None
  | PInts [x; y] => Some ((x, y) :: repeat (0, 0)%Z (n - 1))
  | PPairs l => if length l =? n then Some l else None
  | PInts l => if length l =? n then Some (map (fun z => (z, z)) l) else None
  end.
Definition pads_nat (l : list (Z * Z)) : option (list (nat * nat)) :=
  if existsb (fun p => (fst p <? 0)%Z || (snd p <? 0)%Z) l then None else Some (map (fun p => (Z.to_nat (fst p), Z.to_nat (snd p))) l).
(** batch_ops.py 95-169 pad: [how = None]: mode "constant" without constant_values *)
Inductive pad_mode := PadConstant (fl : dtype -> Z) | PadCopy (g : nat -> nat -> nat -> nat).
Definition leaf_pad (m : pad_mode) (pads : list (nat * nat)) (a : array) : option array :=
  if ndim a <? length pads then None
  else let full_pads := pads ++ repeat (0, 0) (ndim a - length pads) in
       match m with PadConstant fl => a_pad full_pads (fl (adtype a)) a | PadCopy g => a_pad_copy g full_pads a end.
Definition obj_pad_mode (c : class) (m : pad_mode) (pads : list (nat * nat)) (o : obj) : option obj :=
  match get_batch c o with
  | Some (Batch B) =>
      if forallb (fun p => (fst p =? 0) && (snd p =? 0)) pads then Some o
      else match B with
           | [] => obind (obj_expand_dims 0 o) (tree_map1 (leaf_pad m pads))
           | _ => tree_map1 (leaf_pad m pads) o
           end
  | _ => None
  end.
Definition obj_pad_arg (c : class) (m : option pad_mode) (p : pad_arg) (o : obj) : option obj :=
  match get_batch c o with
  | Some (Batch B) =>
      obind (normalize_pad p (match B with [] => 1 | _ => length B end)) (fun zs => obind (pads_nat zs) (fun pads =>
        match m with None => obj_pad c pads o | Some m => obj_pad_mode c m pads o end))
  | _ => None
  end.
