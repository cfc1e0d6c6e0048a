(** * UpdateModel.v — core/xtructure_numpy/array_ops.py [_update_array_on_condition] and
      dataclass_ops/logical_ops.py [update_on_condition] (definitions only).

    An array with leading dimension [n] is a list of [n] rows of an arbitrary type [A];
    [condition] and [indices] have the same shape and are flattened (array_ops.py 46-53);
    a scalar [values_to_set] is the list repeating it.  The index dtype can represent
    [n] (otherwise jnp.array(n, dtype) fails or wraps). *)
From Verif Require Import Jax StableSort GroupFirst.

Section Upd.
Context {A : Type}.
(** array_ops.py 38-85 *)
Definition true_indices (n : nat) (indices : list Z) (condition : list bool) : list Z :=
  map (fun p : Z * bool => if snd p && (0 <=? fst p)%Z && (fst p <? Z.of_nat n)%Z then fst p else Z.of_nat n) (combine indices condition).
Definition update_array (arr : list A) (indices : list Z) (condition : list bool) (values : list A) : list A :=
  let n := length arr in
  let m := length condition in
  if m =? 0 then arr
  else
    let ti := true_indices n indices condition in
    let perm := isort (fun a b => (nth a ti 0 <=? nth b ti 0)%Z) (seq 0 m) in
    let st := map (fun i => nth i ti 0%Z) perm in
    let starts := if m =? 1 then [true] else group_start Z.eqb st in
    let winners_sorted := map (fun p : bool * Z => fst p && negb (snd p =? Z.of_nat n)%Z) (combine starts st) in
    let winners := scatter_back false perm winners_sorted in
    let safe := map (fun p : bool * Z => if fst p then snd p else Z.of_nat n) (combine winners indices) in
    jsets arr safe values.
(** array_ops.py 21-36: tuple of index arrays, one per batch axis; [indices] lists the
    coordinates of every update; [jnp.ravel_multi_index(..., mode="clip")] *)
Fixpoint ravel_clip (shape : list nat) (coord : list Z) : Z :=
  match shape, coord with
  | d :: shape', c :: coord' =>
      (Z.max 0 (Z.min c (Z.of_nat d - 1)) * Z.of_nat (fold_right Nat.mul 1%nat shape') + ravel_clip shape' coord')%Z
  | _, _ => 0%Z
  end.
(** [arr] is the array with its batch axes flattened row-major *)
Definition update_array_nd (shape : list nat) (arr : list A) (coords : list (list Z)) (condition : list bool) (values : list A) : list A :=
  update_array arr (map (ravel_clip shape) coords) condition values.
End Upd.
