(** * BlockModel.v — xnp.block (core/xtructure_numpy/dataclass_ops/batch_ops.py 298-353) of
    nested lists of instances (definitions only).  [None] is a raised exception. *)
From Verif Require Import Jax StructModel ArrayModel RowsModel RowsModel2.

(** a nested list whose items are all lists or blocks *)
Inductive nested (A : Type) := Blk (a : A) | Lst (l : list (nested A)).
Arguments Blk {A} a.
Arguments Lst {A} l.
Fixpoint leaves {A} (t : nested A) : list A := match t with Blk a => [a] | Lst l => flat_map leaves l end.
(** jax.numpy.block: [_atleast_nd] puts axes of size 1 in front *)
Definition a_atleast (n : nat) (a : array) : array := as_shape (repeat 1 (n - ndim a) ++ ashape a) a.
(** jax.numpy.block's [_block]: the result and its nesting depth plus one; a list is joined
    along axis -depth; an empty list or mixed depths raise *)
Fixpoint block_arr (t : nested array) : option (array * nat) :=
  match t with
  | Blk a => Some (a, 1)
  | Lst l =>
      match sequence (map block_arr l) with
      | Some ((x, d) :: r) =>
          if forallb (fun p => snd p =? d) r then
            let xs := x :: map fst r in
            let rank := Nat.max d (list_max (map ndim xs)) in
            option_map (fun y => (y, S d)) (a_concat (- Z.of_nat d) (map (a_atleast rank) xs))
          else None
      | _ => None
      end
  end.
(** batch_ops.py 338-340 tree_transpose: one array of every block, put where the block was *)
Fixpoint fill {A} (t : nested A) (l : list array) : option (nested array) :=
  match t with
  | Blk _ => match l with [x] => Some (Blk x) | _ => None end
  | Lst ts =>
      option_map Lst
        ((fix go (ts : list (nested A)) (l : list array) : option (list (nested array)) :=
            match ts with
            | [] => match l with [] => Some [] | _ => None end
            | u :: us =>
                match fill u (firstn (length (leaves u)) l), go us (skipn (length (leaves u)) l) with
                | Some x, Some y => Some (x :: y)
                | _, _ => None
                end
            end) ts l)
  end.
(** batch_ops.py 298-353 block: [jnp.block] of every field (the nested lists contain lists only,
    and instances of one class) *)
Definition obj_block (t : nested obj) : option obj :=
  tree_mapn (fun l => match fill t l with Some u => option_map fst (block_arr u) | None => None end) (leaves t).
