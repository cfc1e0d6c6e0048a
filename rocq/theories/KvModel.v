(** * KvModel.v — merge_split/parallel.py 383-503 [merge_arrays_parallel_kv]: the merge
      that moves keys and values in one kernel, with the values cut into the narrow
      arrays the kernel can take (definitions only).

    A value is the list of its leaves, a leaf (of one row) the list of its entries in
    row-major order (383-503 reshape every leaf to [(rows, inner_size)] first, 434-435,
    and back afterwards, 482-500; shapes themselves are not modelled).  [sizes] are the
    inner sizes of the leaves, 418-421.  The shape checks 391-392, 397-398, 413-416 are
    not modelled: both sides are instances of one class. *)
From Verif Require Import Jax KeyModel MergeModel.

(** parallel.py 67-74: XTRUCTURE_BGPQ_MERGE_VALUE_PACKING *)
Inductive packing := PAuto | PPad | PScalar | PShard.

(** Python's [int.bit_length] of a number that is not negative *)
Definition bit_length (x : nat) : nat := if x =? 0 then 0 else S (Nat.log2 x).
(** parallel.py 404-407 [_next_power_of_two], 409-410 [_is_power_of_two] *)
Definition next_pow2 (v : nat) : nat := if v <=? 1 then 1 else 2 ^ bit_length (v - 1).
Definition is_pow2 (v : nat) : bool := (0 <? v) && (Nat.land v (v - 1) =? 0).

(** parallel.py 445-450: the widths of the shards of a leaf of [rem] entries.  [fuel]
    bounds the loop; [rem] itself is enough. *)
Fixpoint shards (fuel rem : nat) : list nat :=
  match fuel with
  | 0 => []
  | S f => if rem =? 0 then [] else let s := 2 ^ (bit_length rem - 1) in s :: shards f (rem - s)
  end.

(** [pack_specs]: how a leaf was cut (parallel.py 437-470) *)
Inductive layout := LScalar (size : nat) | LShard (widths : list nat) | LPad (size padded : nat).
(** parallel.py 423-432, 437, 444, 461: the choice for a leaf of [size] entries *)
Definition layout_of (pk : packing) (scalar_max size : nat) : layout :=
  let shard := LShard (shards size size) in
  let pad := LPad size (next_pow2 size) in
  match pk with
  | PScalar => LScalar size
  | PShard => shard
  | PPad => pad
  | PAuto => if is_pow2 size then pad else if size <=? scalar_max then shard else pad
  end.
(** Nothing to join: [jnp.stack([])] (485) and [jnp.concatenate([])] (491) raise. *)
Definition layout_ok (l : layout) : bool :=
  match l with LScalar 0 | LShard [] => false | _ => true end.
(** the number of arrays a leaf is cut into *)
Definition ncols (l : layout) : nat :=
  match l with LScalar s => s | LShard ws => length ws | LPad _ _ => 1 end.
(** the number of entries per row of each of these arrays *)
Definition widths (l : layout) : list nat :=
  match l with LScalar s => repeat 1 s | LShard ws => ws | LPad _ p => [p] end.

Section Kv.
Context {E : Type} (zero : E).
(** an array with rows *)
Notation array := (list (list E)).
(** a value: its leaves *)
Notation value := (list (list E)).

(** parallel.py 452-457: consecutive column ranges *)
Fixpoint cut (ws : list nat) (start : nat) (rows : array) : list array :=
  match ws with
  | [] => []
  | w :: t => map (fun r => firstn w (skipn start r)) rows :: cut t (start + w) rows
  end.
(** parallel.py 437-470: the arrays one leaf becomes *)
Definition pack_cols (l : layout) (rows : array) : list array :=
  match l with
  | LScalar s => map (fun i => map (fun r => [nth i r zero]) rows) (seq 0 s)
  | LShard ws => cut ws 0 rows
  | LPad size p => [map (fun r => r ++ repeat zero (p - size)) rows]
  end.
(** parallel.py 412-470: the leaves in turn, all arrays in one list *)
Fixpoint pack_all (ls : list layout) (vals : list value) : list array :=
  match ls with
  | [] => []
  | l :: t => pack_cols l (map (hd []) vals) ++ pack_all t (map (@tl _) vals)
  end.

(** parallel.py 485 (stack axis=1) and 491 (concatenate axis=1): join [n] rows *)
Definition join (n : nat) (cols : list array) : array :=
  map (fun j => concat (map (fun col => nth j col []) cols)) (seq 0 n).
(** parallel.py 480-500: one leaf from its arrays *)
Definition restore (l : layout) (n : nat) (cols : list array) : array :=
  match l with
  | LScalar _ | LShard _ => join n cols
  | LPad size p => if p =? size then nth 0 cols [] else map (firstn size) (nth 0 cols [])
  end.
(** parallel.py 477-500: all leaves; [offset] advances by the number of arrays used *)
Fixpoint restore_all (ls : list layout) (n : nat) (cols : list array) : list array :=
  match ls with
  | [] => []
  | l :: t => restore l n (firstn (ncols l) cols) :: restore_all t n (skipn (ncols l) cols)
  end.
(** parallel.py 502 [tree_unflatten]: row [j] of the result is row [j] of every leaf *)
Definition rows_of (n : nat) (leaves : list array) : list value :=
  map (fun j => map (fun lf => nth j lf []) leaves) (seq 0 n).

(** parallel.py 383-503.  The kernel (178-241, 324-360) moves row [i] of every array
    together: its payload is the list of these rows. *)
Definition merge_fused (smin smax : key) (block_size : nat) (pk : packing) (scalar_max : nat) (sizes : list nat)
    (ak : list key) (av : list value) (bk : list key) (bv : list value) : option (list (key * value)) :=
  let ls := map (layout_of pk scalar_max) sizes in
  if forallb layout_ok ls then
    let pa := pack_all ls av in
    let pb := pack_all ls bv in
    let total := length ak + length bk in
    let merged := if total =? 0 then Some []
                  else run_grid ak bk smin smax
                         (fun i => map (fun arr => nth (Nat.min i (length ak - 1)) arr []) pa)
                         (fun j => map (fun arr => nth (Nat.min j (length bk - 1)) arr []) pb) block_size in
    match merged with
    | None => None
    | Some res =>
        let outs := map (fun c => map (fun kv => nth c (snd kv) []) res) (seq 0 (length pa)) in
        Some (combine (map fst res) (rows_of (length res) (restore_all ls (length res) outs)))
    end
  else None.
End Kv.
