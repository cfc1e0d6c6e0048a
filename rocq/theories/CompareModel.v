(** * CompareModel.v — isclose and allclose (core/xtructure_numpy/dataclass_ops/comparison_ops.py)
    and can_cast (dataclass_ops/type_ops.py) of dataclass instances (definitions only).

    [None] is a raised exception.  The test made on two numbers (by [jnp.isclose] with the
    given [rtol], [atol] and [equal_nan]) is a parameter [close] of the model: a relation on
    the entries of one dtype.  Arrays of different dtypes: see PromoteModel.v ([equal] only). *)
From Coq Require Import String.
From Verif Require Import Jax StructModel ArrayModel RowsModel EqModel RowsModel2.

(** comparison_ops.py 23-35 isclose: an instance of boolean arrays *)
Definition obj_isclose (close : dtype -> Z -> Z -> bool) (o q : obj) : option obj := tree_mapn (a_compare_arr close) [o; q].
(** comparison_ops.py 62-64 [_leaf_allclose] *)
Definition leaf_allclose (close : dtype -> Z -> Z -> bool) (a b : array) : option bool := option_map (forallb (fun x => x)) (a_compare close a b).
(** comparison_ops.py 38-67 allclose: tree_reduce with the initial value True *)
Definition obj_allclose (close : dtype -> Z -> Z -> bool) (o q : obj) : option bool :=
  option_map (fun l => fold_left andb l true) (zip_obj (leaf_allclose close) o q).

(** [numpy.can_cast(f, t, casting="safe")] on boolean, integer and floating dtypes *)
Definition safe_cast (f t : dtype) : bool :=
  match f, t with
  | DBool, _ => true
  | DUInt w, DUInt v => w <=? v
  | DUInt w, DInt v => w <? v
  | DInt w, DInt v => w <=? v
  | DUInt w, DFloat v | DInt w, DFloat v => (w <? v) || ((w =? 64) && (v =? 64))
  | DFloat w, DFloat v => w <=? v
  | _, _ => false
  end.
(** the second argument of can_cast: a dtype, or an instance *)
Inductive cast_target := ToDtype (dt : dtype) | ToLike (q : obj).
(** type_ops.py 53-57 [_leaf_can_cast] on two arrays; the result is a Python bool *)
Definition leaf_can_cast (rule : dtype -> dtype -> bool) (a b : array) : option bool := Some (rule (adtype a) (adtype b)).
(** tree_map over one instance with a result of another kind: the results, in tree order *)
Fixpoint each_leaf_v (f : array -> option bool) (v : value) : option (list bool) :=
  match v with VArr a => option_map (fun r => [r]) (f a) | VObj o => each_leaf f o end
with each_leaf (f : array -> option bool) (o : obj) : option (list bool) :=
  match o with
  | ONil => Some []
  | OCons _ v r => match each_leaf_v f v, each_leaf f r with Some x, Some y => Some (x ++ y)%list | _, _ => None end
  end.
(** type_ops.py 42-85 can_cast.  Against a dtype the first tree_map raises ValueError (a
    dtype is not an instance) and the dtype is repeated for every array.  Against an instance
    of another structure the fallback raises: its [dtype] is not a numpy dtype, unless there is
    no array to compare *)
Definition obj_can_cast (rule : dtype -> dtype -> bool) (o : obj) (to : cast_target) : option bool :=
  option_map (fun l => fold_left andb l true)
    match to with
    | ToDtype dt => each_leaf (fun a => Some (rule (adtype a) dt)) o
    | ToLike q => match zip_obj (leaf_can_cast rule) o q with
                  | Some l => Some l
                  | None => each_leaf (fun _ => None) o
                  end
    end.
