(** * ArrayModel.v — multi-dimensional arrays and the jax.numpy operations the library applies
    to every field (definitions only).

    jax.numpy is not part of /repo: these definitions state the documented meaning of the
    operations that xtructure_numpy/dataclass_ops/{batch,shape,logical,spatial}_ops.py and
    xtructure_decorators/indexing.py call.  [None] is a raised exception.  Operations that
    combine arrays require equal dtypes (promotion is not modelled). *)
From Verif Require Import Jax StructModel.

(** row-major position of a multi-index, and back *)
Fixpoint ravel (s idx : list nat) : nat :=
  match s, idx with d :: s', i :: idx' => i * prod s' + ravel s' idx' | _, _ => 0 end.
Fixpoint unravel (s : list nat) (k : nat) : list nat :=
  match s with [] => [] | d :: s' => (k / prod s') :: unravel s' (k mod prod s') end.
(** an index inside a shape *)
Definition inb (idx s : list nat) : Prop := Forall2 lt idx s.
Definition get (a : array) (idx : list nat) : Z := nth (ravel (ashape a) idx) (adata a) 0%Z.
Definition build (dt : dtype) (s : list nat) (f : list nat -> Z) : array :=
  MkArr dt s (map (fun k => f (unravel s k)) (seq 0 (prod s))).
Definition wfa (a : array) : Prop := length (adata a) = prod (ashape a).
Definition ndim (a : array) : nat := length (ashape a).

Definition upd {X} (k : nat) (x : X) (l : list X) : list X := firstn k l ++ match skipn k l with [] => [] | _ :: r => x :: r end.
Definition insert {X} (k : nat) (x : X) (l : list X) : list X := firstn k l ++ x :: skipn k l.
Definition remove_nth {X} (k : nat) (l : list X) : list X := firstn k l ++ skipn (S k) l.
Definition shape_eqb (s t : list nat) : bool := if list_eq_dec Nat.eq_dec s t then true else false.
Definition dtype_eq_dec (a b : dtype) : {a = b} + {a <> b}.
Proof. decide equality; apply Nat.eq_dec. Defined.
Definition dtype_eqb (a b : dtype) : bool := if dtype_eq_dec a b then true else false.

(** NumPy axis normalization *)
Definition norm_axis (axis : Z) (n : nat) : option nat :=
  if (axis <? 0)%Z then (if (0 <=? Z.of_nat n + axis)%Z then Some (Z.to_nat (Z.of_nat n + axis)) else None)
  else if (axis <? Z.of_nat n)%Z then Some (Z.to_nat axis) else None.

(** jnp.reshape *)
Definition a_reshape (s : list nat) (a : array) : option array :=
  if prod s =? prod (ashape a) then Some (MkArr (adtype a) s (adata a)) else None.
(** jnp.expand_dims *)
Definition a_expand (axis : Z) (a : array) : option array :=
  match norm_axis axis (S (ndim a)) with
  | Some k => Some (build (adtype a) (insert k 1 (ashape a)) (fun idx => get a (remove_nth k idx)))
  | None => None
  end.
(** jnp.stack *)
Definition a_stack (axis : Z) (l : list array) : option array :=
  match l with
  | [] => None
  | a0 :: _ =>
      if forallb (fun a => shape_eqb (ashape a) (ashape a0) && dtype_eqb (adtype a) (adtype a0)) l then
        match norm_axis axis (S (ndim a0)) with
        | Some k => Some (build (adtype a0) (insert k (length l) (ashape a0)) (fun idx => get (nth (nth k idx 0) l a0) (remove_nth k idx)))
        | None => None
        end
      else None
  end.
(** jnp.concatenate *)
Fixpoint locate (sizes : list nat) (i : nat) : nat * nat :=
  match sizes with
  | [] => (0, i)
  | n :: r => if i <? n then (0, i) else let '(j, q) := locate r (i - n) in (S j, q)
  end.
Definition a_concat (axis : Z) (l : list array) : option array :=
  match l with
  | [] => None
  | a0 :: _ =>
      match norm_axis axis (ndim a0) with
      | Some k =>
          if forallb (fun a => shape_eqb (remove_nth k (ashape a)) (remove_nth k (ashape a0)) && (ndim a =? ndim a0) && dtype_eqb (adtype a) (adtype a0)) l then
            let sizes := map (fun a => nth k (ashape a) 0) l in
            Some (build (adtype a0) (upd k (list_sum sizes) (ashape a0))
                    (fun idx => let '(j, q) := locate sizes (nth k idx 0) in get (nth j l a0) (upd k q idx)))
          else None
      | None => None
      end
  end.
(** jnp.take: default mode "fill"; negative indices count from the end.
    An index outside the axis reads JAX's documented fill value: [True], the
    largest unsigned, the smallest signed integer, or the quiet NaN of the float
    format ([0x7E00], [0x7FC00000], [0x7FF8000000000000]). *)
Definition norm_index (z : Z) (d : nat) : option nat := norm_axis z d.
Definition take_fill (dt : dtype) : Z :=
  match dt with
  | DBool => 1%Z
  | DUInt w => (2 ^ Z.of_nat w - 1)%Z
  | DInt w => (- 2 ^ (Z.of_nat w - 1))%Z
  | DFloat w => if w =? 16 then 0x7E00%Z else if w =? 64 then 0x7FF8000000000000%Z else 0x7FC00000%Z
  end.
(** [read z d] is the position that index [z] reads along an axis of length [d], if any;
    [fill] is what it reads otherwise.  A non-empty take from an empty axis raises. *)
Definition a_take_by (read : Z -> nat -> option nat) (fill : dtype -> Z) (indices : array) (axis : Z) (a : array) : option array :=
  match norm_axis axis (ndim a) with
  | Some k =>
      let m := ndim indices in
      if (nth k (ashape a) 0 =? 0) && negb (prod (ashape indices) =? 0) then None
      else
      Some (build (adtype a) (firstn k (ashape a) ++ ashape indices ++ skipn (S k) (ashape a))
              (fun idx => match read (get indices (firstn m (skipn k idx))) (nth k (ashape a) 0) with
                          | Some i => get a (firstn k idx ++ i :: skipn (k + m) idx)
                          | None => fill (adtype a)
                          end))
  | None => None
  end.
Definition a_take (indices : array) (axis : Z) (a : array) : option array := a_take_by norm_index take_fill indices axis a.
(** jnp.transpose *)
Fixpoint index_of (m : nat) (l : list nat) : nat := match l with [] => 0 | x :: r => if x =? m then 0 else S (index_of m r) end.
Fixpoint norm_axes (axes : list Z) (n : nat) : option (list nat) :=
  match axes with
  | [] => Some []
  | x :: r => match norm_axis x n, norm_axes r n with Some k, Some ks => Some (k :: ks) | _, _ => None end
  end.
Fixpoint nodupb (l : list nat) : bool := match l with [] => true | x :: r => negb (existsb (Nat.eqb x) r) && nodupb r end.
Definition a_transpose (axes : list Z) (a : array) : option array :=
  match norm_axes axes (ndim a) with
  | Some ks =>
      if (length ks =? ndim a) && nodupb ks then
        Some (build (adtype a) (map (fun k => nth k (ashape a) 0) ks)
                (fun idx => get a (map (fun m => nth (index_of m ks) idx 0) (seq 0 (ndim a)))))
      else None
  | None => None
  end.
(** jnp.swapaxes *)
Definition swap_list (i j n : nat) : list nat := map (fun k => if k =? i then j else if k =? j then i else k) (seq 0 n).
Definition a_swapaxes (i j : Z) (a : array) : option array :=
  match norm_axis i (ndim a), norm_axis j (ndim a) with
  | Some i, Some j => a_transpose (map Z.of_nat (swap_list i j (ndim a))) a
  | _, _ => None
  end.
(** one slice [start : start+len] along an axis; jnp.split cuts with such slices *)
Definition a_slice (k start len : nat) (a : array) : array :=
  build (adtype a) (upd k len (ashape a)) (fun idx => get a (upd k (start + nth k idx 0) idx)).
(** jnp.split: an int (equal sections) or a list of cut points *)
Definition cut_points (d : nat) (how : nat + list nat) : option (list (nat * nat)) :=
  match how with
  | inl n => if (n =? 0) || negb (d mod n =? 0) then None else Some (map (fun i => (i * (d / n), d / n)) (seq 0 n))
  | inr cuts => let pts := map (Nat.min d) cuts in Some (map (fun p => (fst p, snd p - fst p)) (combine (0 :: pts) (pts ++ [d])))
  end.
Definition a_split (how : nat + list nat) (axis : Z) (a : array) : option (list array) :=
  match norm_axis axis (ndim a) with
  | Some k => match cut_points (nth k (ashape a) 0) how with
              | Some ps => Some (map (fun p => a_slice k (fst p) (snd p) a) ps)
              | None => None
              end
  | None => None
  end.
(** jnp.flip / jnp.roll with one axis *)
Definition a_flip (axis : Z) (a : array) : option array :=
  match norm_axis axis (ndim a) with
  | Some k => Some (build (adtype a) (ashape a) (fun idx => get a (upd k (nth k (ashape a) 0 - 1 - nth k idx 0) idx)))
  | None => None
  end.
Definition a_roll (shift : Z) (axis : Z) (a : array) : option array :=
  match norm_axis axis (ndim a) with
  | Some k => Some (build (adtype a) (ashape a)
                (fun idx => get a (upd k (Z.to_nat ((Z.of_nat (nth k idx 0%nat) - shift) mod Z.of_nat (nth k (ashape a) 0%nat))) idx)))
  | None => None
  end.
(** jnp.flip with axis=None *)
Definition a_flip_all (a : array) : array :=
  build (adtype a) (ashape a) (fun idx => get a (map (fun p => snd p - 1 - fst p) (combine idx (ashape a)))).
(** jnp.repeat with an int and an axis *)
Definition a_repeat (r : nat) (axis : Z) (a : array) : option array :=
  match norm_axis axis (ndim a) with
  | Some k => Some (build (adtype a) (upd k (nth k (ashape a) 0 * r) (ashape a)) (fun idx => get a (upd k (nth k idx 0 / r) idx)))
  | None => None
  end.
(** jnp.broadcast_to: shapes aligned at the right *)
Fixpoint bcast_ok (s t : list nat) : bool := match s, t with [], [] => true | d :: s', e :: t' => ((d =? e) || (d =? 1)) && bcast_ok s' t' | _, _ => false end.
Definition bcast_src (s idx : list nat) : list nat := map (fun p => if fst p =? 1 then 0 else snd p) (combine s (skipn (length idx - length s) idx)).
Definition a_broadcast_to (t : list nat) (a : array) : option array :=
  if (ndim a <=? length t) && bcast_ok (ashape a) (skipn (length t - ndim a) t)
  then Some (build (adtype a) t (fun idx => get a (bcast_src (ashape a) idx)))
  else None.
(** jnp.squeeze with one axis / with axis=None *)
Definition a_squeeze (axis : Z) (a : array) : option array :=
  match norm_axis axis (ndim a) with
  | Some k => if nth k (ashape a) 0 =? 1 then Some (build (adtype a) (remove_nth k (ashape a)) (fun idx => get a (insert k 0 idx))) else None
  | None => None
  end.
Definition a_squeeze_all (a : array) : array := MkArr (adtype a) (filter (fun d => negb (d =? 1)) (ashape a)) (adata a).
(** jnp.tile: a short [reps] applies to the trailing axes *)
Definition a_tile (reps : list nat) (a : array) : array :=
  let n := Nat.max (ndim a) (length reps) in
  let s := repeat 1 (n - ndim a) ++ ashape a in
  let r := repeat 1 (n - length reps) ++ reps in
  build (adtype a) (map (fun p => fst p * snd p) (combine s r))
    (fun idx => get a (skipn (n - ndim a) (map (fun p => fst p mod snd p) (combine idx s)))).
(** jnp.take_along_axis: default mode "fill"; an empty axis reads zeros *)
Definition a_take_along_by (read : Z -> nat -> option nat) (fill : dtype -> Z) (k : nat) (indices a : array) : option array :=
  if (ndim indices =? ndim a) && shape_eqb (remove_nth k (ashape indices)) (remove_nth k (ashape a)) then
    Some (build (adtype a) (ashape indices)
            (fun idx => if nth k (ashape a) 0 =? 0 then 0%Z else
                        match read (get indices idx) (nth k (ashape a) 0) with
                        | Some i => get a (upd k i idx)
                        | None => fill (adtype a)
                        end))
  else None.
Definition a_take_along (k : nat) (indices a : array) : option array := a_take_along_by norm_index take_fill k indices a.
(** jnp.pad, mode "constant" *)
Definition a_pad (pads : list (nat * nat)) (fill : Z) (a : array) : option array :=
  if length pads =? ndim a then
    Some (build (adtype a) (map (fun q => fst q + (fst (snd q) + snd (snd q))) (combine (ashape a) pads))
            (fun idx => if forallb (fun q => (fst (snd q) <=? fst (fst q)) && (fst (fst q) <? fst (snd q) + snd (fst q))) (combine (combine idx (ashape a)) pads)
                        then get a (map (fun q => fst q - fst (snd q)) (combine idx pads)) else fill))
  else None.
(** elementwise selection of equally shaped arrays: jnp.where / lax.select *)
Definition a_where (cond x y : array) : option array :=
  if shape_eqb (ashape cond) (ashape x) && shape_eqb (ashape y) (ashape x) && dtype_eqb (adtype x) (adtype y) then
    Some (build (adtype x) (ashape x) (fun idx => if (get cond idx =? 0)%Z then get y idx else get x idx))
  else None.

(** NumPy/JAX indexing: integers (clamped when out of range), slices given by their
    resolved start, step and length, None/newaxis, and one leading integer array *)
Inductive index_item := IInt (z : Z) | ISlice (start step : Z) (len : nat) | INew.
Definition clamp_index (z : Z) (d : nat) : nat :=
  let z1 := if (z <? 0)%Z then (z + Z.of_nat d)%Z else z in Z.to_nat (Z.max 0 (Z.min z1 (Z.of_nat d - 1))).
Fixpoint index_shape (ix : list index_item) (s : list nat) : option (list nat) :=
  match ix, s with
  | [], _ => Some s
  | INew :: ix', _ => option_map (cons 1) (index_shape ix' s)
  | IInt _ :: ix', d :: s' => if d =? 0 then None else index_shape ix' s'
  | ISlice _ _ len :: ix', d :: s' => option_map (cons len) (index_shape ix' s')
  | _, [] => None
  end.
Fixpoint index_src (ix : list index_item) (s idx : list nat) : list nat :=
  match ix, s, idx with
  | INew :: ix', _, _ :: idx' => index_src ix' s idx'
  | IInt z :: ix', d :: s', _ => clamp_index z d :: index_src ix' s' idx
  | ISlice st step _ :: ix', _ :: s', i :: idx' => Z.to_nat (st + step * Z.of_nat i) :: index_src ix' s' idx'
  | _, _, _ => idx
  end.
Definition a_index (ix : list index_item) (a : array) : option array :=
  match index_shape ix (ashape a) with
  | Some s => Some (build (adtype a) s (fun idx => get a (index_src ix (ashape a) idx)))
  | None => None
  end.
Definition a_index_array (indices : array) (a : array) : option array :=
  match ashape a with
  | d :: s => if (d =? 0) && negb (prod (ashape indices) =? 0) then None else
              Some (build (adtype a) (ashape indices ++ s)
                (fun idx => get a (clamp_index (get indices (firstn (ndim indices) idx)) d :: skipn (ndim indices) idx)))
  | [] => None
  end.
(** slice.indices(d) for a non-zero step: the resolved (start, step, length) *)
Definition slice_indices (start stop : option Z) (step : Z) (d : nat) : Z * Z * nat :=
  let n := Z.of_nat d in
  let lo := (if (step <? 0)%Z then -1 else 0)%Z in
  let hi := (if (step <? 0)%Z then n - 1 else n)%Z in
  let clip z := (let z1 := if z <? 0 then z + n else z in Z.max lo (Z.min hi z1))%Z in
  let a := match start with Some z => clip z | None => (if (step <? 0)%Z then hi else lo) end in
  let b := match stop with Some z => clip z | None => (if (step <? 0)%Z then lo else hi) end in
  (a, step, Z.to_nat (if (step <? 0)%Z then (a - b - step - 1) / (- step) else (b - a + step - 1) / step)%Z).

(** x.at[box].set(v): [box] gives a start and a length for the leading axes; positions in
    the box come from [v] broadcast to the box, others are unchanged *)
Definition in_box (box : list (nat * nat)) (idx : list nat) : bool :=
  forallb (fun q => (fst (snd q) <=? fst q) && (fst q <? fst (snd q) + snd (snd q))) (combine idx box).
Definition a_set_box (box : list (nat * nat)) (v a : array) : option array :=
  if (length box <=? ndim a) && forallb (fun q => fst (snd q) + snd (snd q) <=? fst q) (combine (ashape a) box) then
    match a_broadcast_to (map snd box ++ skipn (length box) (ashape a)) v with
    | Some w => Some (build (adtype a) (ashape a)
                  (fun idx => if in_box box idx then get w (map (fun q => fst q - fst (snd q)) (combine idx box) ++ skipn (length box) idx) else get a idx))
    | None => None
    end
  else None.
