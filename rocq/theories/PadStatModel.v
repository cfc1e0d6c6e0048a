(** * PadStatModel.v — xnp.pad with the modes that compute the padding from the entries along the
      padded axis: "maximum", "minimum", "mean", "median" and "linear_ramp" (definitions only).

    core/xtructure_numpy/dataclass_ops/batch_ops.py 95-169 with [mode] one of these.  [fl x y i dt l]
    is the entry put at place [i] of an axis padded by [x] before and [y] after whose entries, all
    of dtype [dt], are [l].  For the statistics it does not depend on [i], or ([stat_length]) only
    on the side.  [None] is a raised exception. *)
From Verif Require Import Jax StructModel ArrayModel ShapeModel RowsModel RowsModel2.

Definition filling := nat -> nat -> nat -> dtype -> list Z -> Z.
(** jax.numpy: one axis after the other, from the entries of the array padded so far *)
Definition pad_stat_axis (fl : filling) (k x y : nat) (a : array) : array :=
  let d := nth k (ashape a) 0 in
  build (adtype a) (upd k (x + (d + y)) (ashape a))
    (fun idx => let i := nth k idx 0 in
                if (x <=? i) && (i <? x + d) then get a (upd k (i - x) idx)
                else fl x y i (adtype a) (map (fun j => get a (upd k j idx)) (seq 0 d))).
Fixpoint pad_stats (fl : filling) (k : nat) (pads : list (nat * nat)) (a : array) : array :=
  match pads with [] => a | p :: r => pad_stats fl (S k) r (pad_stat_axis fl k (fst p) (snd p) a) end.
(** no entries: raises (for the statistics; fields of "mean" without entries are left out) *)
Definition a_pad_stat (fl : filling) (pads : list (nat * nat)) (a : array) : option array :=
  if negb (length pads =? ndim a) then None else if existsb (Nat.eqb 0) (ashape a) then None else Some (pad_stats fl 0 pads a).
(** batch_ops.py 108-127 (a single instance is expanded first), 143-166 *)
Definition leaf_pad_stat (fl : filling) (pads : list (nat * nat)) (a : array) : option array :=
  if ndim a <? length pads then None else a_pad_stat fl (pads ++ repeat (0, 0) (ndim a - length pads)) a.
Definition obj_pad_stat (c : class) (fl : filling) (pads : list (nat * nat)) (o : obj) : option obj :=
  match get_batch c o with
  | Some (Batch B) =>
      if forallb (fun p => (fst p =? 0) && (snd p =? 0)) pads then Some o
      else match B with
           | [] => obind (obj_expand_dims 0 o) (tree_map1 (leaf_pad_stat fl pads))
           | _ => tree_map1 (leaf_pad_stat fl pads) o
           end
  | _ => None
  end.
(** the statistic [st] of all entries along the axis, rounded to the dtype of the field *)
Definition stat (st : dtype -> list Z -> Z) : filling := fun _ _ _ => st.
(** [stat_length=m], a number: of the first [m] entries before and of the last [m] after *)
Definition stat_of (m : nat) (st : dtype -> list Z -> Z) : filling :=
  fun x y i dt l => st dt (if i <? x then firstn m l else skipn (length l - m) l).
Definition obj_pad_stat_length (c : class) (st : dtype -> list Z -> Z) (m : nat) (pads : list (nat * nat)) (o : obj) : option obj :=
  if (m =? 0) && negb (forallb (fun p => (fst p =? 0) && (snd p =? 0)) pads) then None else obj_pad_stat c (stat_of m st) pads o.
Definition stat_max (dt : dtype) (l : list Z) : Z := match l with [] => 0%Z | z :: r => fold_right Z.max z r end.
Definition stat_min (dt : dtype) (l : list Z) : Z := match l with [] => 0%Z | z :: r => fold_right Z.min z r end.
