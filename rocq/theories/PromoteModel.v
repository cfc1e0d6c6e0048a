(** * PromoteModel.v — jax.numpy's dtype promotion and conversion of numbers (definitions only).

    jax.numpy is not part of /repo; these are the documented rules behind [jnp.result_type]
    (called by core/xtructure_numpy/dataclass_ops/type_ops.py 30-41 and implicitly by
    [jnp.concatenate], [jnp.stack], [jnp.where], [==] ... on arrays of different dtypes) and
    [jnp.astype] (type_ops.py 13-27).  Weakly typed arrays are not modelled, nor bfloat16 and
    float8. *)
From Coq Require Import String.
From Verif Require Import Jax StructModel ArrayModel ShapeModel RowsModel EqModel RowsModel2.

(** ** The promotion lattice *)
(** a dtype, or the "weak float" that uint64 and signed integers meet in *)
Inductive node := Nd (dt : dtype) | Fstar.
Definition join (a b : node) : node :=
  match a, b with
  | Nd DBool, x | x, Nd DBool => x
  | Nd (DUInt v), Nd (DUInt w) => Nd (DUInt (Nat.max v w))
  | Nd (DInt v), Nd (DInt w) => Nd (DInt (Nat.max v w))
  | Nd (DUInt v), Nd (DInt w) | Nd (DInt w), Nd (DUInt v) => if v <? 64 then Nd (DInt (Nat.max (2 * v) w)) else Fstar
  | Nd (DFloat v), Nd (DFloat w) => Nd (DFloat (Nat.max v w))
  | Nd (DFloat v), _ => Nd (DFloat v)
  | _, Nd (DFloat w) => Nd (DFloat w)
  | Fstar, _ | _, Fstar => Fstar
  end.
(** canonicalization: without jax_enable_x64 there are no 64-bit dtypes *)
Definition canon (x64 : bool) (n : node) : dtype :=
  match n with
  | Fstar => if x64 then DFloat 64 else DFloat 32
  | Nd dt => if x64 then dt else
      match dt with
      | DUInt w => if w =? 64 then DUInt 32 else dt
      | DInt w => if w =? 64 then DInt 32 else dt
      | DFloat w => if w =? 64 then DFloat 32 else dt
      | DBool => DBool
      end
  end.
(** jnp.result_type of arrays with these dtypes (at least one) *)
Definition result_type (x64 : bool) (dts : list dtype) : dtype := canon x64 (fold_right join (Nd DBool) (map Nd dts)).

(** ** Conversion of numbers *)
(** the exponent of the smallest positive number of a float dtype, counted from 2^-1074, the
    smallest positive binary64 number: in units of 2^-1074 every number of every dtype is an
    integer *)
Definition low_exp (w : nat) : Z := (1074 - (man_bits w + 2 ^ (Z.of_nat w - 2 - man_bits w) - 2))%Z.
(** the magnitude of a finite float, in units of 2^-1074 *)
Definition fnum (w : nat) (z : Z) : Z :=
  let M := (2 ^ man_bits w)%Z in let e := (fmag w z / M)%Z in let m := (fmag w z mod M)%Z in
  ((if e =? 0 then m else (M + m) * 2 ^ (e - 1)) * 2 ^ low_exp w)%Z.
(** round to nearest, ties to even, of [n] units: the pattern without sign, infinity included *)
Definition round_mag (w : nat) (n : Z) : Z :=
  let L := Z.max (low_exp w) (Z.log2 n - man_bits w) in
  let q := (n / 2 ^ L)%Z in
  let r := (n mod 2 ^ L)%Z in
  let q' := if ((2 * r <? 2 ^ L) || ((2 * r =? 2 ^ L) && Z.even q))%Z then q else (q + 1)%Z in
  Z.min ((L - low_exp w) * 2 ^ man_bits w + q') (inf_pat w).
Definition fsign (w : nat) (neg : bool) : Z := if neg then (2 ^ (Z.of_nat w - 1))%Z else 0%Z.
Definition nan_pat (w : nat) : Z := (inf_pat w + 2 ^ (man_bits w - 1))%Z.
(** [astype] on one entry.  A float outside the range of an integer dtype: jax leaves the result
    to the platform (here: the value modulo 2^w) *)
Definition conv (f t : dtype) (z : Z) : Z :=
  if dtype_eqb f t then z else
  match t with
  | DFloat w =>
      match f with
      | DFloat v =>
          let s := fsign w (2 ^ (Z.of_nat v - 1) <=? z)%Z in
          if is_nan v z then nan_pat w
          else if (fmag v z =? inf_pat v)%Z then (s + inf_pat w)%Z
          else (s + round_mag w (fnum v z))%Z
      | _ => (fsign w (z <? 0)%Z + round_mag w (Z.abs z * 2 ^ 1074))%Z
      end
  | _ =>
      match f with
      | DFloat v =>
          match t with
          | DBool => if (fmag v z =? 0)%Z then 0%Z else 1%Z
          | _ => let n := (fnum v z / 2 ^ 1074)%Z in cast t (if (2 ^ (Z.of_nat v - 1) <=? z)%Z then (- n)%Z else n)
          end
      | _ => cast t z
      end
  end.
Definition a_conv (t : dtype) (a : array) : array := MkArr t (ashape a) (map (conv (adtype a) t) (adata a)).

(** ** Operations on arrays of different dtypes: convert to the common dtype first *)
Definition promoted (x64 : bool) (f : list array -> option array) (l : list array) : option array :=
  let t := result_type x64 (map adtype l) in f (map (a_conv t) l).
(** batch_ops.py 172-200 stack, 46-94 concat: RowsModel.v's [obj_stack] and [obj_concat] with
    arrays that may differ in dtype *)
Definition obj_stack_p (x64 : bool) (c : class) (axis : Z) (os : list obj) : option obj :=
  match os with
  | [] => None
  | [o] => obj_expand_dims axis o
  | _ =>
      match batch_of c os with
      | Some (b :: bs) =>
          if forallb (fun x => stype_eqb (structured_type x) (structured_type b)) bs &&
             (negb (stype_eqb (structured_type b) BATCHED) || forallb (batch_eqb b) bs)
          then tree_mapn (promoted x64 (a_stack axis)) os else None
      | _ => None
      end
  end.
Definition obj_concat_p (x64 : bool) (c : class) (axis : Z) (os : list obj) : option obj :=
  match os with
  | [] => None
  | [o] => Some o
  | _ =>
      match batch_of c os with
      | Some (b :: bs) =>
          if forallb (fun x => stype_eqb (structured_type x) (structured_type b)) bs then
            match b with
            | Batch [] => obj_stack_p x64 c axis os
            | Unstr => None
            | Batch B0 =>
                let adj := if (axis <? 0)%Z then (Z.of_nat (length B0) + axis)%Z else axis in
                if (adj >=? Z.of_nat (length B0))%Z then None
                else if forallb (fun x => match x with Batch B => concat_dims_ok adj B0 B | Unstr => false end) bs
                     then tree_mapn (promoted x64 (a_concat axis)) os else None
            end
          else None
      | _ => None
      end
  end.
(** logical_ops.py 14-51 where with an instance for [y] *)
Definition obj_where_p (x64 : bool) (cond : array) (x y : obj) : option obj := tree_mapn (promoted x64 (leaf_where cond)) [x; y].
(** comparison_ops.py 13-20 equal *)
Definition obj_equal_p (x64 : bool) (o q : obj) : option obj := tree_mapn (promoted x64 (a_compare_arr elt_eqb)) [o; q].
Definition leaf2_p {X} (x64 : bool) (f : array -> array -> option X) (a b : array) : option X :=
  let t := result_type x64 [adtype a; adtype b] in f (a_conv t a) (a_conv t b).
(** ops.py 25-50 [==], [!=] *)
Definition obj_eq_p (x64 : bool) (o q : obj) : option bool := match zip_obj (leaf2_p x64 leaf_eq) o q with Some l => tree_reduce andb l | None => None end.
Definition obj_ne_p (x64 : bool) (o q : obj) : option bool := match zip_obj (leaf2_p x64 leaf_ne) o q with Some l => tree_reduce orb l | None => None end.
(** type_ops.py 13-25 astype *)
Definition obj_astype_p (t : dtype) (o : obj) : option obj := tree_map1 (fun a => Some (a_conv t a)) o.
(** type_ops.py 28-39 result_type: an instance of dtypes; here the dtypes in tree order *)
Definition obj_result_type (x64 : bool) (os : list obj) : option (list dtype) :=
  option_map (fun r => map adtype (arrays r)) (tree_mapn (fun l => Some (MkArr (result_type x64 (map adtype l)) [] [0%Z])) os).
(** indexing.py 34-74 [.at[...].set(value)] with an instance of other dtypes: jax converts the
    value to the dtype of the array it is written to *)
Definition conv_like (l : list array) : option array := match l with [a; b] => Some (a_conv (adtype a) b) | _ => None end.
Definition obj_set_p (box : list (nat * nat)) (o v : obj) : option obj := option_map (set_box box o) (tree_mapn conv_like [o; v]).
(** batch_ops.py 96-169 pad (RowsModel.v's [obj_pad]) of an instance whose arrays may have other
    dtypes than declared: the padding is the class's default, with the declared dtypes *)
Definition obj_pad_p (c : class) (pads : list (nat * nat)) (o : obj) : option obj :=
  match get_batch c o with
  | Some (Batch []) =>
      match pads with
      | [(x, y)] => if (x =? 0) && (y =? 0) then Some o else obj_set_p [(x, 1)] (default_obj [1 + x + y] c) o
      | _ => None
      end
  | Some (Batch B) =>
      if length pads =? length B then
        if forallb (fun p => (fst p =? 0) && (snd p =? 0)) pads then Some o
        else obj_set_p (map (fun q => (fst (snd q), fst q)) (combine B pads))
                     (default_obj (map (fun q => fst q + fst (snd q) + snd (snd q)) (combine B pads)) c) o
      else None
  | _ => None
  end.
