(** * BlockTupleModel.v — xnp.block (core/xtructure_numpy/dataclass_ops/batch_ops.py 298-353) of
    nested lists and tuples of instances of one class (definitions only).  [None] is a raised
    exception. *)
From Verif Require Import Jax StructModel ArrayModel EqModel RowsModel RowsModel2 BlockModel.

(** lists ([tuple = false]) and tuples ([tuple = true]) *)
Inductive seqs (A : Type) := One (a : A) | Seq (tuple : bool) (l : list (seqs A)).
Arguments One {A} a.
Arguments Seq {A} tuple l.
Fixpoint smap {A B} (f : A -> B) (t : seqs A) : seqs B := match t with One a => One (f a) | Seq b l => Seq b (map (smap f) l) end.
(** jax.numpy.block refuses tuples: what is left are nested lists *)
Fixpoint as_lists {A} (t : seqs A) : option (nested A) :=
  match t with
  | One a => Some (Blk a)
  | Seq false l => option_map Lst (sequence (map as_lists l))
  | Seq true _ => None
  end.
Definition jnp_block (t : seqs array) : option array := match as_lists t with Some u => option_map fst (block_arr u) | None => None end.
(** batch_ops.py 348-352: tree_map(jnp.block, ..., is_leaf: a list) over what one array of every
    instance is nested in: tuples are nodes of the tree, so the map goes below them *)
Fixpoint field_block (t : seqs array) : option (seqs array) :=
  match t with
  | Seq true l => option_map (Seq true) (sequence (map field_block l))
  | _ => option_map One (jnp_block t)
  end.
(** the number of arrays of an instance *)
Fixpoint places_d (d : desc) : nat := match d with Prim _ _ _ _ _ => 1 | Nest c _ => places c end
with places (c : class) : nat := match c with CNil => 0 | CCons _ d r => places_d d + places r end.
Definition no_array : array := MkArr DBool [] [].
(** batch_ops.py 330-353: what the arrays of the result, in the order of the fields, become *)
Definition obj_blocks (c : class) (t : seqs obj) : option (list (seqs array)) :=
  sequence (map (fun k => field_block (smap (fun o => nth k (arrays o) no_array) t)) (seq 0 (places c))).
