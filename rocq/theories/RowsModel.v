(** * RowsModel.v — batch operations on instances (definitions only).

    core/xtructure_numpy/dataclass_ops/{batch,shape,spatial,logical}_ops.py and
    core/xtructure_decorators/indexing.py.  [None] is a raised exception. *)
From Coq Require Import String.
From Verif Require Import Jax StructModel ArrayModel ShapeModel.

Fixpoint sequence {X} (l : list (option X)) : option (list X) :=
  match l with [] => Some [] | Some x :: r => option_map (cons x) (sequence r) | None :: _ => None end.
Definition as_arr (v : value) : option array := match v with VArr a => Some a | VObj _ => None end.
Definition as_obj (v : value) : option obj := match v with VObj o => Some o | VArr _ => None end.
Definition head_field (n : string) (o : obj) : option (value * obj) :=
  match o with OCons m v r => if String.eqb m n then Some (v, r) else None | ONil => None end.
Definition is_nil (o : obj) : bool := match o with ONil => true | _ => false end.

(** jax.tree_util.tree_map(f, o, *os) over instances of one class (see TreeModel.v for the
    flatten/unflatten it is made of) *)
Fixpoint tmap_v (f : list array -> option array) (v : value) (vs : list value) : option value :=
  match v with
  | VArr a => match sequence (map as_arr vs) with Some l => option_map VArr (f (a :: l)) | None => None end
  | VObj o => match sequence (map as_obj vs) with Some l => option_map VObj (tmap f o l) | None => None end
  end
with tmap (f : list array -> option array) (o : obj) (os : list obj) : option obj :=
  match o with
  | ONil => if forallb is_nil os then Some ONil else None
  | OCons n v r =>
      match sequence (map (head_field n) os) with
      | Some l => match tmap_v f v (map fst l), tmap f r (map snd l) with Some v', Some r' => Some (OCons n v' r') | _, _ => None end
      | None => None
      end
  end.
Definition one (f : array -> option array) (l : list array) : option array := match l with [a] => f a | _ => None end.
Definition tree_map1 (f : array -> option array) (o : obj) : option obj := tmap (one f) o [].
Definition tree_mapn (f : list array -> option array) (os : list obj) : option obj := match os with [] => None | o :: r => tmap f o r end.

(** indexing.py 182-199 [__getitem__] (nested instances index themselves) *)
Definition obj_index (ix : list index_item) (o : obj) : option obj := tree_map1 (a_index ix) o.
Definition obj_index_array (indices : array) (o : obj) : option obj := tree_map1 (a_index_array indices) o.

(** shape_ops.py 14-77 reshape; a dimension is -1 or a size *)
Fixpoint count_neg (s : list Z) : nat := match s with [] => 0 | z :: r => (if (z =? -1)%Z then 1 else 0) + count_neg r end.
Definition zprod (s : list Z) : Z := fold_right Z.mul 1%Z s.
Definition resolve (total : nat) (s : list Z) : option (list Z) :=
  if count_neg s =? 0 then Some s
  else if 1 <? count_neg s then None
  else let p := zprod (filter (fun z => negb (z =? -1)%Z) s) in
       if (p =? 0)%Z then None
       else if negb (Z.of_nat total mod p =? 0)%Z then None
       else Some (map (fun z => if (z =? -1)%Z then (Z.of_nat total / p)%Z else z) s).
Definition leaf_reshape (B : nat) (s : list nat) (a : array) : option array :=
  if ndim a <? B then Some a else a_reshape (s ++ skipn B (ashape a)) a.
Definition obj_reshape (c : class) (s : list Z) (o : obj) : option obj :=
  match get_batch c o with
  | Some (Batch (d :: B)) =>
      match resolve (prod (d :: B)) s with
      | Some s' => if (Z.of_nat (prod (d :: B)) =? zprod s')%Z then
                     (if existsb (fun z => (z <? 0)%Z) s' then None else tree_map1 (leaf_reshape (length (d :: B)) (map Z.to_nat s')) o)
                   else None
      | None => None
      end
  | _ => None
  end.
(** shape_ops.py 80-98 flatten *)
Definition obj_flatten (c : class) (o : obj) : option obj :=
  match get_batch c o with
  | Some (Batch (d :: B)) => tree_map1 (leaf_reshape (length (d :: B)) [prod (d :: B)]) o
  | _ => None
  end.
(** shape_ops.py 101-124 transpose *)
Definition leaf_transpose (n : nat) (axes : list Z) (a : array) : option array :=
  if ndim a <? n then Some a else a_transpose (axes ++ map Z.of_nat (seq n (ndim a - n))) a.
Definition obj_transpose (c : class) (axes : option (list Z)) (o : obj) : option obj :=
  match get_batch c o with
  | Some (Batch B) => let ax := match axes with Some l => l | None => map Z.of_nat (rev (seq 0 (length B))) end in
                      tree_map1 (leaf_transpose (length B) ax) o
  | _ => None
  end.
(** shape_ops.py 127-158 swapaxes *)
Definition obj_swapaxes (c : class) (i j : Z) (o : obj) : option obj :=
  match get_batch c o with
  | Some (Batch B) =>
      match norm_axis i (length B), norm_axis j (length B) with
      | Some i, Some j => tree_map1 (fun a => if ndim a <? length B then Some a else a_swapaxes (Z.of_nat i) (Z.of_nat j) a) o
      | _, _ => None
      end
  | _ => None
  end.
(** shape_ops.py 161-198, spatial_ops.py: the axis is handed to every leaf unchanged *)
Definition obj_expand_dims (axis : Z) (o : obj) : option obj := tree_map1 (a_expand axis) o.
Definition obj_squeeze (axis : Z) (o : obj) : option obj := tree_map1 (a_squeeze axis) o.
Definition obj_squeeze_all (o : obj) : option obj := tree_map1 (fun a => Some (a_squeeze_all a)) o.
Definition obj_repeat (r : nat) (axis : Z) (o : obj) : option obj := tree_map1 (a_repeat r axis) o.
Definition obj_broadcast_to (s : list nat) (o : obj) : option obj := tree_map1 (a_broadcast_to s) o.
Definition obj_flip (axis : Z) (o : obj) : option obj := tree_map1 (a_flip axis) o.
Definition obj_flip_all (o : obj) : option obj := tree_map1 (fun a => Some (a_flip_all a)) o.
Definition obj_roll (shift axis : Z) (o : obj) : option obj := tree_map1 (a_roll shift axis) o.

(** batch_ops.py 172-199 stack *)
Definition batch_of (c : class) (os : list obj) : option (list batch) := sequence (map (get_batch c) os).
Definition stype_eqb (a b : stype) : bool := match a, b with SINGLE, SINGLE | BATCHED, BATCHED | UNSTRUCTURED, UNSTRUCTURED => true | _, _ => false end.
Definition obj_stack (c : class) (axis : Z) (os : list obj) : option obj :=
  match os with
  | [] => None
  | [o] => obj_expand_dims axis o
  | _ =>
      match batch_of c os with
      | Some (b :: bs) =>
          if forallb (fun x => stype_eqb (structured_type x) (structured_type b)) bs &&
             (negb (stype_eqb (structured_type b) BATCHED) || forallb (batch_eqb b) bs)
          then tree_mapn (a_stack axis) os else None
      | _ => None
      end
  end.
(** batch_ops.py 46-92 concat *)
Definition concat_dims_ok (adj : Z) (B0 B : list nat) : bool :=
  (length B =? length B0) && forallb (fun q => (Z.of_nat (fst q) =? adj)%Z || (fst (snd q) =? snd (snd q))) (combine (seq 0 (length B0)) (combine B0 B)).
Definition obj_concat (c : class) (axis : Z) (os : list obj) : option obj :=
  match os with
  | [] => None
  | [o] => Some o
  | _ =>
      match batch_of c os with
      | Some (b :: bs) =>
          if forallb (fun x => stype_eqb (structured_type x) (structured_type b)) bs then
            match b with
            | Batch [] => obj_stack c axis os
            | Unstr => None
            | Batch B0 =>
                let adj := if (axis <? 0)%Z then (Z.of_nat (length B0) + axis)%Z else axis in
                if (adj >=? Z.of_nat (length B0))%Z then None
                else if forallb (fun x => match x with Batch B => concat_dims_ok adj B0 B | Unstr => false end) bs
                     then tree_mapn (a_concat axis) os else None
            end
          else None
      | _ => None
      end
  end.
(** batch_ops.py 202-206 take; 209-243 take_along_axis *)
Definition obj_take (indices : array) (axis : Z) (o : obj) : option obj := tree_map1 (a_take indices axis) o.
Definition leaf_take_along (indices : array) (axis : Z) (a : array) : option array :=
  match norm_axis axis (ndim a) with
  | None => None
  | Some k =>
      if ndim a <? ndim indices then None
      else match a_reshape (ashape indices ++ repeat 1 (ndim a - ndim indices)) indices with
           | Some e => match a_broadcast_to (upd k (nth k (ashape e) 0) (ashape a)) e with
                       | Some e' => a_take_along k e' a
                       | None => None
                       end
           | None => None
           end
  end.
Definition obj_take_along (indices : array) (axis : Z) (o : obj) : option obj := tree_map1 (leaf_take_along indices axis) o.
(** batch_ops.py 246-251 tile *)
Definition obj_tile (reps : list nat) (o : obj) : option obj := tree_map1 (fun a => Some (a_tile reps a)) o.
(** batch_ops.py 254-271 split: piece [i] of every leaf *)
Definition piece (how : nat + list nat) (axis : Z) (i : nat) (a : array) : option array :=
  match a_split how axis a with Some l => nth_error l i | None => None end.
Fixpoint first_leaf_v (v : value) : option array := match v with VArr a => Some a | VObj o => first_leaf o end
with first_leaf (o : obj) : option array :=
  match o with ONil => None | OCons _ v r => match first_leaf_v v with Some a => Some a | None => first_leaf r end end.
Definition obj_split (how : nat + list nat) (axis : Z) (o : obj) : option (list obj) :=
  match first_leaf o with
  | None => Some []
  | Some a => match a_split how axis a with
              | Some l => sequence (map (fun i => tree_map1 (piece how axis i) o) (seq 0 (length l)))
              | None => None
              end
  end.

(** indexing.py 34-73 [.at[box].set(values)] with an instance of the same class: a field
    whose update raises keeps its old value *)
Fixpoint set_box_v (box : list (nat * nat)) (v w : value) {struct v} : value :=
  match v, w with
  | VArr a, VArr b => match a_set_box box b a with Some a' => VArr a' | None => v end
  | VObj o, VObj q => VObj (set_box box o q)
  | _, _ => v
  end
with set_box (box : list (nat * nat)) (o q : obj) {struct o} : obj :=
  match o, q with
  | OCons n v r, OCons _ w s => OCons n (set_box_v box v w) (set_box box r s)
  | _, _ => o
  end.
(** batch_ops.py 95-169 pad with mode "constant" and no constant_values, per-axis pad widths.
    [.at[x].set(v)] with an integer is the box of length 1 at [x] with [v] broadcast to it. *)
Definition obj_pad (c : class) (pads : list (nat * nat)) (o : obj) : option obj :=
  match get_batch c o with
  | Some (Batch []) =>
      match pads with
      | [(x, y)] => if (x =? 0) && (y =? 0) then Some o else Some (set_box [(x, 1)] (default_obj [1 + x + y] c) o)
      | _ => None
      end
  | Some (Batch B) =>
      if length pads =? length B then
        if forallb (fun p => (fst p =? 0) && (snd p =? 0)) pads then Some o
        else Some (set_box (map (fun q => (fst (snd q), fst q)) (combine B pads))
                     (default_obj (map (fun q => fst q + fst (snd q) + snd (snd q)) (combine B pads)) c) o)
      else None
  | _ => None
  end.
(** logical_ops.py 13-72 where with an instance for [y] *)
Definition leaf_where (cond : array) (l : list array) : option array :=
  match l with
  | [x; y] => match a_broadcast_to (ashape x) cond, a_broadcast_to (ashape x) y with
              | Some cd, Some y' => a_where cd x y'
              | _, _ => None
              end
  | _ => None
  end.
Definition obj_where (cond : array) (x y : obj) : option obj := tree_mapn (leaf_where cond) [x; y].
